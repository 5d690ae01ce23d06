(** Specification vocabulary for paths: which texts are plain components, and how
    components are joined.  Nothing here mentions the model. *)
From Coq Require Import List NArith ZArith Bool.
From Verif Require Import S_Json.
Import ListNotations.

(** A byte that has no structural meaning inside a component: not a dot, a pipe or
    a backslash. *)
Definition comp_byte (c : N) : Prop := c <> 0x2E%N /\ c <> 0x7C%N /\ c <> 0x5C%N.
(** A component may not start like a modifier, a query or a multipath. *)
Definition comp_head (k : text) : Prop :=
  match k with
  | [] => True
  | c :: _ => c <> 0x40%N /\ c <> 0x23%N /\ c <> 0x7B%N /\ c <> 0x5B%N
  end.
(** A component: structural bytes only behind a backslash.  It may contain the
    wildcards star and question mark. *)
Inductive comp_body : text -> Prop :=
| cb_nil : comp_body []
| cb_char : forall c t, comp_byte c -> comp_body t -> comp_body (c :: t)
| cb_esc : forall c t, comp_body t -> comp_body (0x5C%N :: c :: t).
Definition component (k : text) : Prop := comp_body k /\ comp_head k.
(** A component that is just a name or an index. *)
Definition wild_byte (c : N) : bool := ((c =? 0x2A) || (c =? 0x3F))%N.
Definition plain_key (k : text) : Prop :=
  Forall (fun c => comp_byte c /\ wild_byte c = false) k /\ comp_head k.
(** A name written with a backslash before every byte that is special in a path. *)
Definition special_byte (c : N) : bool :=
  existsb (N.eqb c) [0x2E; 0x7C; 0x5C; 0x2A; 0x3F; 0x40; 0x23; 0x7B; 0x5B]%N.
Fixpoint path_escape (k : text) : text :=
  match k with
  | [] => []
  | c :: t => if special_byte c then 0x5C%N :: c :: path_escape t else c :: path_escape t
  end.

(** Components joined by dots. *)
Fixpoint dotted (ks : list text) : text :=
  match ks with
  | [] => []
  | [k] => k
  | k :: t => k ++ 0x2E%N :: dotted t
  end.

(** Text with balanced brackets (of any kind, the kinds need not agree) outside
    string literals; a backslash hides the next byte.  What stands between the quotes of
    a literal need not be valid JSON. *)
Definition bracket_open (c : N) : Prop := c = 0x28%N \/ c = 0x5B%N \/ c = 0x7B%N.
Definition bracket_close (c : N) : Prop := c = 0x29%N \/ c = 0x5D%N \/ c = 0x7D%N.
Inductive quotable : text -> Prop :=
| qt_nil : quotable []
| qt_char : forall c t, c <> 0x22%N -> c <> 0x5C%N -> quotable t -> quotable (c :: t)
| qt_esc : forall c t, quotable t -> quotable (0x5C%N :: c :: t).
Inductive balanced : text -> Prop :=
| bal_nil : balanced []
| bal_char : forall c t, ~ bracket_open c -> ~ bracket_close c -> c <> 0x22%N -> c <> 0x5C%N ->
    balanced t -> balanced (c :: t)
| bal_esc : forall c t, balanced t -> balanced (0x5C%N :: c :: t)
| bal_string : forall b t, quotable b -> balanced t -> balanced (quoted b ++ t)
| bal_group : forall o q c t, bracket_open o -> balanced q -> bracket_close c -> balanced t ->
    balanced (o :: q ++ c :: t).

(** The query component of the text [q] of a query: [#(q)] for the first match,
    [#(q)#] for all matches. *)
Definition qcomp (q : text) (all : bool) : text :=
  0x23%N :: 0x28%N :: q ++ 0x29%N :: (if all then [0x23%N] else []).
(** Components of a modifier-free path: names, indexes and patterns, the hash, queries. *)
Definition any_comp (k : text) : Prop :=
  component k \/ k = [0x23%N] \/ exists q all, balanced q /\ k = qcomp q all.

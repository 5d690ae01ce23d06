(** Specification: what the modifiers and [ugly] make of a text that need not be JSON.
    Nothing here mentions the model, apart from the kinds of values. *)
From Coq Require Import List NArith.
From Verif Require Import M_Value S_Json S_Path S_Rough S_Look.
Import ListNotations.

(** [bared s t]: [t] is [s] without the blanks that stand outside of strings.  Behind a
    quote that is never closed everything is kept. *)
Inductive bared : text -> text -> Prop :=
| ba_nil : bared [] []
| ba_blank : forall c s t, (c <= 0x20)%N -> bared s t -> bared (c :: s) t
| ba_byte : forall c s t, (0x20 < c)%N -> c <> 0x22%N -> bared s t -> bared (c :: s) (c :: t)
| ba_string : forall b s t, quotable b -> bared s t -> bared (quoted b ++ s) (quoted b ++ t)
| ba_open : forall s, (forall b r, quotable b -> 0x22%N :: s <> quoted b ++ r) -> bared (0x22%N :: s) (0x22%N :: s).

(** The bytes of [s] from [a] up to [b]. *)
Definition bytes_of (s : text) (a b : nat) : text := firstn (b - a) (skipn a s).
(** What the text [s] has from where one piece begins to where another ends. *)
Definition stretch (s : text) (p : piece * piece) : text :=
  bytes_of s (fst (fst (fst p))) (fst (fst (snd p)) + length (piece_text (snd p))).

Definition non_empty (t : text) : bool := match t with [] => false | _ => true end.
(** What stands between the brackets. *)
Definition between (t : text) : text := removelast (tl t).
(** An array stands for what is between its brackets. *)
Definition laid_open (p : piece) : text :=
  match snd p with KArray => between (piece_text p) | _ => piece_text p end.
(** An array stands for its pieces, and so on for the arrays among these. *)
Inductive leaves : list piece -> list text -> Prop :=
| lv_nil : leaves [] []
| lv_piece : forall n t k ps ts, k <> KArray -> leaves ps ts -> leaves ((n, t, k) :: ps) (t :: ts)
| lv_array : forall n r ps' ts' ps ts, pieces 1 r ps' -> leaves ps' ts' -> leaves ps ts ->
    leaves ((n, 0x5B%N :: r, KArray) :: ps) (ts' ++ ts).

(** The objects among the pieces. *)
Definition is_object (p : piece) : bool := match snd p with KObject => true | _ => false end.

(** The name that a piece in the place of a name stands for. *)
Inductive stands_for : piece -> text -> Prop :=
| sf_string : forall n b m, quotable b -> name_of b m -> stands_for (n, quoted b, KString) m
| sf_true : forall n t, stands_for (n, t, KTrue) [0x74; 0x72; 0x75; 0x65]%N
| sf_false : forall n t, stands_for (n, t, KFalse) [0x66; 0x61; 0x6C; 0x73; 0x65]%N
| sf_null : forall n t, stands_for (n, t, KNull) []
| sf_text : forall n t k, k = KNumber \/ k = KObject \/ k = KArray -> stands_for (n, t, k) t.

(** A member: how its name is written, the name, and the text of the value. *)
Definition field := (text * text * text)%type.
Definition is_field (p : piece * piece) (f : field) : Prop :=
  match f with (k, n, v) => k = piece_text (fst p) /\ stands_for (fst p) n /\ v = piece_text (snd p) end.
(** The members of the objects among the pieces. *)
Inductive fields : list piece -> list field -> Prop :=
| fl_nil : fields [] []
| fl_other : forall n t k ps fs, k <> KObject -> fields ps fs -> fields ((n, t, k) :: ps) fs
| fl_object : forall n r ps' fs' ps fs, pieces 1 r ps' -> Forall2 is_field (two_by_two ps') fs' -> fields ps fs ->
    fields ((n, 0x7B%N :: r, KObject) :: ps) (fs' ++ fs).
(** A member takes the place of the value of the one of that name, or comes last. *)
Fixpoint put (l : list field) (f : field) : list field :=
  match l with
  | [] => [f]
  | (k, n, v) :: t => if list_eq_dec N.eq_dec n (snd (fst f)) then (k, n, snd f) :: t else (k, n, v) :: put t f
  end.
Definition field_text (f : field) : text := fst (fst f) ++ 0x3A%N :: snd f.

(** The same text and kind, and both exist or neither does. *)
Definition same_value (x y : value) : Prop := v_json x = v_json y /\ v_kind x = v_kind y /\ v_exists x = v_exists y.

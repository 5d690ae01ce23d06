(** Specification: how a text that need not be JSON is taken apart. *)
From Coq Require Import List NArith.
From Verif Require Export S_Json.
From Verif Require Import M_Value S_Path.
Import ListNotations.

(** The bytes a number goes on with: digits, the dot, e, E and the signs. *)
Definition num_byte (c : N) : Prop := (0x30 <= c <= 0x39)%N \/ In c [0x2E; 0x65; 0x45; 0x2D; 0x2B]%N.

(** [token t k r]: a text [t ++ r] begins with the piece [t], taken for a value of kind [k]. *)
Inductive token : text -> kind -> text -> Prop :=
| tk_string : forall b r, quotable b -> token (quoted b) KString r
| tk_number : forall c b r, (0x30 <= c <= 0x39)%N \/ c = 0x2D%N -> Forall num_byte b ->
    (forall d r', r = d :: r' -> ~ num_byte d) -> token (c :: b) KNumber r
| tk_true : forall t r, length t = 3 -> token (0x74%N :: t) KTrue r
| tk_false : forall t r, length t = 4 -> token (0x66%N :: t) KFalse r
| tk_null : forall t r, length t = 3 -> token (0x6E%N :: t) KNull r
| tk_object : forall q c r, balanced q -> bracket_close c -> token (0x7B%N :: q ++ [c]) KObject r
| tk_array : forall q c r, balanced q -> bracket_close c -> token (0x5B%N :: q ++ [c]) KArray r.

(** Blanks, commas and colons are passed over. *)
Definition filler (c : N) : Prop := (c <= 0x20)%N \/ c = 0x2C%N \/ c = 0x3A%N.
Definition ending (c : N) : Prop := c = 0x7D%N \/ c = 0x5D%N.

(** The pieces of what follows the opening bracket, which begins at [n]: where each
    begins, its text and its kind.  They end at a closing bracket, at the end of the text,
    or where no piece begins. *)
Inductive pieces : nat -> text -> list (nat * text * kind) -> Prop :=
| pc_end : forall n, pieces n [] []
| pc_close : forall n c r, ending c -> pieces n (c :: r) []
| pc_filler : forall n c r l, filler c -> pieces (S n) r l -> pieces n (c :: r) l
| pc_token : forall n t k r l, token t k r -> pieces (n + length t) r l -> pieces n (t ++ r) ((n, t, k) :: l)
| pc_stop : forall n s, (forall t k r, token t k r -> s <> t ++ r) -> (forall c r, s = c :: r -> ~ filler c) -> pieces n s [].

(** A value is such a piece. *)
Definition is_piece (v : value) (p : nat * text * kind) : Prop :=
  match p with (n, t, k) => v_json v = t /\ v_kind v = k /\ v_index v = Some n /\ v_exists v = true end.

(** Two by two; one that is left over is dropped. *)
Fixpoint two_by_two {A} (l : list A) : list (A * A) :=
  match l with a :: b :: t => (a, b) :: two_by_two t | _ => [] end.

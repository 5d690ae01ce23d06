(** Specification: what JSON string literals denote, well-formed UTF-8, and glob
    patterns.  Nothing here mentions the model. *)
From Coq Require Import List NArith Bool.
From Verif Require Import S_Json.
Import ListNotations.

(** ** UTF-8 (RFC 3629) *)

(** Unicode scalar values. *)
Definition scalar (u : N) : Prop := (u < 0xD800 \/ 0xE000 <= u < 0x110000)%N.

(** Encoding of a scalar value, by the table of section 3. *)
Definition utf8_enc (u : N) : text :=
  if (u <? 0x80)%N then [u]
  else if (u <? 0x800)%N then [0xC0 + u / 64; 0x80 + u mod 64]%N
  else if (u <? 0x10000)%N then [0xE0 + u / 4096; 0x80 + (u / 64) mod 64; 0x80 + u mod 64]%N
  else [0xF0 + u / 262144; 0x80 + (u / 4096) mod 64; 0x80 + (u / 64) mod 64; 0x80 + u mod 64]%N.

(** Well-formed UTF-8: a concatenation of encoded scalar values. *)
Inductive utf8 : text -> Prop :=
| utf8_nil : utf8 []
| utf8_cons : forall u t, scalar u -> utf8 t -> utf8 (utf8_enc u ++ t).

(** ** String literals (RFC 8259, section 7) *)

Definition short_val (e : N) : N :=
  match e with
  | 0x62 => 0x08      (* b *)
  | 0x66 => 0x0C      (* f *)
  | 0x6E => 0x0A      (* n *)
  | 0x72 => 0x0D      (* r *)
  | 0x74 => 0x09      (* t *)
  | e => e            (* quote, backslash, slash *)
  end%N.

Definition hex_val (c : N) : N :=
  if (c <=? 57)%N then (c - 48)%N else if (c <=? 70)%N then (c - 55)%N else (c - 87)%N.
Definition hex4_val (a b c d : N) : N :=
  (((hex_val a * 16 + hex_val b) * 16 + hex_val c) * 16 + hex_val d)%N.

Definition high_surrogate (u : N) : Prop := (0xD800 <= u < 0xDC00)%N.
Definition low_surrogate (u : N) : Prop := (0xDC00 <= u < 0xE000)%N.
(** The code point of a surrogate pair. *)
Definition pair_value (hi lo : N) : N := (0x10000 + (hi - 0xD800) * 0x400 + (lo - 0xDC00))%N.

(** [u_escape a b c d] is the six byte escape of the four hex digits. *)
Definition u_escape (a b c d : N) : text := [0x5C; 0x75; a; b; c; d]%N.

(** [denotes body t]: the literal with [body] between its quotes denotes the
    UTF-8 text [t].  A lone surrogate denotes nothing.  The parameter [ok]
    restricts the surrogate pairs that may occur. *)
Inductive denotes_if (ok : N -> N -> Prop) : text -> text -> Prop :=
| den_nil : denotes_if ok [] []
| den_plain : forall c b t, plain c -> denotes_if ok b t -> denotes_if ok (c :: b) (c :: t)
| den_short : forall e b t, short_esc e -> denotes_if ok b t ->
    denotes_if ok (0x5C%N :: e :: b) (short_val e :: t)
| den_uni : forall h1 h2 h3 h4 b t, hex h1 -> hex h2 -> hex h3 -> hex h4 ->
    scalar (hex4_val h1 h2 h3 h4) -> denotes_if ok b t ->
    denotes_if ok (u_escape h1 h2 h3 h4 ++ b) (utf8_enc (hex4_val h1 h2 h3 h4) ++ t)
| den_pair : forall h1 h2 h3 h4 l1 l2 l3 l4 b t,
    hex h1 -> hex h2 -> hex h3 -> hex h4 -> hex l1 -> hex l2 -> hex l3 -> hex l4 ->
    high_surrogate (hex4_val h1 h2 h3 h4) -> low_surrogate (hex4_val l1 l2 l3 l4) ->
    ok (hex4_val h1 h2 h3 h4) (hex4_val l1 l2 l3 l4) ->
    denotes_if ok b t ->
    denotes_if ok (u_escape h1 h2 h3 h4 ++ u_escape l1 l2 l3 l4 ++ b)
      (utf8_enc (pair_value (hex4_val h1 h2 h3 h4) (hex4_val l1 l2 l3 l4)) ++ t).

Definition denotes : text -> text -> Prop := denotes_if (fun _ _ => True).
(** Only surrogate pairs of the odd planes 1, 3, ..., 15. *)
Definition odd_plane (hi lo : N) : Prop := ((pair_value hi lo / 0x10000) mod 2 = 1)%N.
Definition denotes_odd : text -> text -> Prop := denotes_if odd_plane.

(** The customary spelling of a byte inside of a literal: the one-letter escapes, the
    six byte escape with upper case digits for the other control characters, and
    anything else as it is. *)
Definition upper_digit (h : N) : N := nth (N.to_nat h) [48; 49; 50; 51; 52; 53; 54; 55; 56; 57; 65; 66; 67; 68; 69; 70]%N 0%N.
Definition spelling (c : N) : text :=
  match c with
  | 0x08 => [0x5C; 0x62]
  | 0x09 => [0x5C; 0x74]
  | 0x0A => [0x5C; 0x6E]
  | 0x0C => [0x5C; 0x66]
  | 0x0D => [0x5C; 0x72]
  | 0x22 => [0x5C; 0x22]
  | 0x5C => [0x5C; 0x5C]
  | _ => if c <? 0x20 then u_escape 0x30 0x30 (upper_digit (c / 16)) (upper_digit (c mod 16)) else [c]
  end%N.

(** For bodies of literals that need not be valid. Every [\u], reading left to right, is followed by four ASCII bytes or cut off
    by the end of the literal. *)
Inductive u_ascii : text -> Prop :=
| ua_nil : u_ascii []
| ua_other : forall c t, c <> 92%N -> u_ascii t -> u_ascii (c :: t)
| ua_last : u_ascii [92%N]
| ua_esc : forall e t, e <> 117%N -> u_ascii t -> u_ascii (92%N :: e :: t)
| ua_uni : forall a b c d t, (a < 128 -> b < 128 -> c < 128 -> d < 128 ->
    u_ascii t -> u_ascii (92 :: 117 :: a :: b :: c :: d :: t))%N
| ua_cut : forall t, length t < 4 -> u_ascii (92%N :: 117%N :: t).

(** ** Globs

    The documented language: a star is any sequence of characters, a question mark
    any one character, backslash c is c, anything else is itself. [char] says
    which byte strings count as one character. *)
Inductive glob (char : text -> Prop) : text -> text -> Prop :=
| glob_nil : glob char [] []
| glob_star0 : forall p s, glob char p s -> glob char (0x2A%N :: p) s
| glob_star1 : forall p u s, char u -> glob char (0x2A%N :: p) s -> glob char (0x2A%N :: p) (u ++ s)
| glob_any : forall p u s, char u -> glob char p s -> glob char (0x3F%N :: p) (u ++ s)
| glob_esc : forall c p s, glob char p s -> glob char (0x5C%N :: c :: p) (c :: s)
| glob_lit : forall c p s, c <> 0x2A%N -> c <> 0x3F%N -> c <> 0x5C%N ->
    glob char p s -> glob char (c :: p) (c :: s).

(** One character = one Unicode scalar value in UTF-8. *)
Definition utf8_char (u : text) : Prop := exists v, scalar v /\ u = utf8_enc v.
(** One character = one byte. *)
Definition byte_char (u : text) : Prop := exists c, u = [c].
Definition ascii (s : text) : Prop := Forall (fun c => (c < 0x80)%N) s.

(** No backslash-question-mark in a pattern (read left to right). *)
Fixpoint no_escaped_qm (p : text) : Prop :=
  match p with
  | [] => True
  | c :: t =>
      if (c =? 0x5C)%N then
        match t with [] => True | d :: t' => d <> 0x3F%N /\ no_escaped_qm t' end
      else no_escaped_qm t
  end.

(** A pattern without the backslashes before question marks. *)
Fixpoint bare_qm (p : text) : text :=
  match p with
  | [] => []
  | c :: t =>
      if (c =? 0x5C)%N then
        match t with
        | [] => [c]
        | d :: t' => if (d =? 0x3F)%N then d :: bare_qm t' else c :: d :: bare_qm t'
        end
      else c :: bare_qm t
  end.

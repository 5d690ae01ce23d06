(** Specification vocabulary: how the text between two quotes is decoded, whatever it is. *)
From Coq Require Import List NArith Bool.
From Verif Require Import S_Json S_Str.
Import ListNotations.

Definition surrogate (u : N) : Prop := high_surrogate u \/ low_surrogate u.

(** The code of the four bytes after backslash-u: four hex digits, or a plus sign and
    three; anything else gives the replacement character. *)
Inductive code4 : N -> N -> N -> N -> N -> Prop :=
| c4_hex : forall a b c d, hex a -> hex b -> hex c -> hex d -> code4 a b c d (hex4_val a b c d)
| c4_plus : forall b c d, hex b -> hex c -> hex d -> code4 0x2B%N b c d (hex4_val 0x30%N b c d)
| c4_bad : forall a b c d, ~ (hex a \/ a = 0x2B%N) \/ ~ hex b \/ ~ hex c \/ ~ hex d -> code4 a b c d 0xFFFD%N.

(** The character of a code that stands alone. *)
Inductive lone_char : N -> N -> Prop :=
| lc_scalar : forall u, ~ surrogate u -> lone_char u u
| lc_surrogate : forall u, surrogate u -> lone_char u 0xFFFD%N.
(** The character of a surrogate [u] followed by another code [w]: pairs of the even
    planes give the character of the plane below. *)
Inductive pair_char : N -> N -> N -> Prop :=
| pc_odd : forall u w, high_surrogate u -> low_surrogate w -> odd_plane u w -> pair_char u w (pair_value u w)
| pc_even : forall u w, high_surrogate u -> low_surrogate w -> ~ odd_plane u w -> pair_char u w (pair_value u w - 0x10000)
| pc_other : forall u w, ~ (high_surrogate u /\ low_surrogate w) -> pair_char u w 0xFFFD%N.

(** [b] is decoded to [t]: decoding ends before a control character, an unknown escape
    or an escape that is cut off. *)
Inductive decodes : text -> text -> Prop :=
| dc_nil : decodes [] []
| dc_control : forall c b, (c < 0x20)%N -> decodes (c :: b) []
| dc_plain : forall c b t, (0x20 <= c)%N -> c <> 0x5C%N -> decodes b t -> decodes (c :: b) (c :: t)
| dc_short : forall e b t, short_esc e -> decodes b t -> decodes (0x5C%N :: e :: b) (short_val e :: t)
| dc_end : decodes [0x5C%N] []
| dc_unknown : forall e b, ~ short_esc e -> e <> 0x75%N -> decodes (0x5C%N :: e :: b) []
| dc_cut : forall b, length b < 4 -> decodes (0x5C%N :: 0x75%N :: b) []
| dc_lone : forall h1 h2 h3 h4 u x b t, code4 h1 h2 h3 h4 u -> lone_char u x ->
    (surrogate u -> forall l1 l2 l3 l4 b', b <> u_escape l1 l2 l3 l4 ++ b') ->
    decodes b t -> decodes (u_escape h1 h2 h3 h4 ++ b) (utf8_enc x ++ t)
| dc_pair : forall h1 h2 h3 h4 u l1 l2 l3 l4 w x b t, code4 h1 h2 h3 h4 u -> surrogate u -> code4 l1 l2 l3 l4 w -> pair_char u w x ->
    decodes b t -> decodes (u_escape h1 h2 h3 h4 ++ u_escape l1 l2 l3 l4 ++ b) (utf8_enc x ++ t).

(** As far as [b] is decoded, the four bytes after each backslash-u are whole
    characters (of UTF-8), not a part of one. *)
Inductive whole_u : text -> Prop :=
| wu_nil : whole_u []
| wu_control : forall c b, (c < 0x20)%N -> whole_u (c :: b)
| wu_plain : forall c b, (0x20 <= c)%N -> c <> 0x5C%N -> whole_u b -> whole_u (c :: b)
| wu_short : forall e b, short_esc e -> whole_u b -> whole_u (0x5C%N :: e :: b)
| wu_end : whole_u [0x5C%N]
| wu_unknown : forall e b, ~ short_esc e -> e <> 0x75%N -> whole_u (0x5C%N :: e :: b)
| wu_cut : forall b, length b < 4 -> whole_u (0x5C%N :: 0x75%N :: b)
| wu_uni : forall h1 h2 h3 h4 b, utf8 [h1; h2; h3; h4] -> whole_u b -> whole_u (u_escape h1 h2 h3 h4 ++ b).

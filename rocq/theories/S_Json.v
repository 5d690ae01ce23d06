(** Specification: the JSON grammar of RFC 8259 over byte strings.  Nothing here
    mentions the model. *)
From Coq Require Import List NArith Bool.
Import ListNotations.

Notation text := (list N) (only parsing).

(** Insignificant whitespace: RFC 8259, section 2. *)
Definition ws_byte (c : N) : Prop := c = 0x20%N \/ c = 0x09%N \/ c = 0x0A%N \/ c = 0x0D%N.
Definition ws (w : text) : Prop := Forall ws_byte w.

(** Numbers: section 6. *)
Definition digit (c : N) : Prop := (48 <= c <= 57)%N.
Definition digits1 (l : text) : Prop := l <> [] /\ Forall digit l.
Inductive int_part : text -> Prop :=
| int_zero : int_part [48%N]
| int_pos : forall d ds, (49 <= d <= 57)%N -> Forall digit ds -> int_part (d :: ds).
Inductive frac_part : text -> Prop :=
| frac_none : frac_part []
| frac_some : forall ds, digits1 ds -> frac_part (46%N :: ds).
Inductive exp_part : text -> Prop :=
| exp_none : exp_part []
| exp_some : forall e sign ds,
    e = 101%N \/ e = 69%N -> sign = [] \/ sign = [43%N] \/ sign = [45%N] -> digits1 ds ->
    exp_part (e :: sign ++ ds).
Inductive number : text -> Prop :=
| number_intro : forall m i f e,
    m = [] \/ m = [45%N] -> int_part i -> frac_part f -> exp_part e ->
    number (m ++ i ++ f ++ e).

(** Strings: section 7.  [chars] is what stands between the quotes. *)
Definition hex (c : N) : Prop :=
  (48 <= c <= 57)%N \/ (97 <= c <= 102)%N \/ (65 <= c <= 70)%N.
Definition short_esc (c : N) : Prop :=
  In c [0x22; 0x5C; 0x2F; 0x62; 0x66; 0x6E; 0x72; 0x74]%N.
Definition plain (c : N) : Prop := (0x20 <= c)%N /\ c <> 0x22%N /\ c <> 0x5C%N.
Inductive chars : text -> Prop :=
| chars_nil : chars []
| chars_plain : forall c t, plain c -> chars t -> chars (c :: t)
| chars_short : forall e t, short_esc e -> chars t -> chars (0x5C%N :: e :: t)
| chars_uni : forall a b c d t, hex a -> hex b -> hex c -> hex d -> chars t ->
    chars (0x5C%N :: 0x75%N :: a :: b :: c :: d :: t).
Definition quoted (body : text) : text := 0x22%N :: body ++ [0x22%N].

Definition t_null : text := [110; 117; 108; 108]%N.
Definition t_true : text := [116; 114; 117; 101]%N.
Definition t_false : text := [102; 97; 108; 115; 101]%N.

(** Values, arrays and objects: sections 3 to 5.  [elements] and [members] are
    the non-empty comma separated sequences with the whitespace around their
    items. *)
Inductive json_value : text -> Prop :=
| jv_null : json_value t_null
| jv_true : json_value t_true
| jv_false : json_value t_false
| jv_number : forall n, number n -> json_value n
| jv_string : forall b, chars b -> json_value (quoted b)
| jv_empty_array : forall w, ws w -> json_value ([0x5B%N] ++ w ++ [0x5D%N])
| jv_array : forall es, elements es -> json_value ([0x5B%N] ++ es ++ [0x5D%N])
| jv_empty_object : forall w, ws w -> json_value ([0x7B%N] ++ w ++ [0x7D%N])
| jv_object : forall ms, members ms -> json_value ([0x7B%N] ++ ms ++ [0x7D%N])
with elements : text -> Prop :=
| el_one : forall w1 v w2, ws w1 -> json_value v -> ws w2 -> elements (w1 ++ v ++ w2)
| el_more : forall w1 v w2 es, ws w1 -> json_value v -> ws w2 -> elements es ->
    elements (w1 ++ v ++ w2 ++ [0x2C%N] ++ es)
with members : text -> Prop :=
| mb_one : forall w1 b w2 w3 v w4,
    ws w1 -> chars b -> ws w2 -> ws w3 -> json_value v -> ws w4 ->
    members (w1 ++ quoted b ++ w2 ++ [0x3A%N] ++ w3 ++ v ++ w4)
| mb_more : forall w1 b w2 w3 v w4 ms,
    ws w1 -> chars b -> ws w2 -> ws w3 -> json_value v -> ws w4 -> members ms ->
    members (w1 ++ quoted b ++ w2 ++ [0x3A%N] ++ w3 ++ v ++ w4 ++ [0x2C%N] ++ ms).

(** A JSON text: section 2. *)
Definition json_text (s : text) : Prop :=
  exists w1 v w2, ws w1 /\ json_value v /\ ws w2 /\ s = w1 ++ v ++ w2.

(** ** Concrete syntax trees

    The same grammar as a data type, so that later specifications can speak of
    elements, members and positions.  Strings are kept as the raw text between
    the quotes, numbers as their raw text. *)
Inductive item (A : Type) := Item (pre : text) (v : A) (post : text).
Arguments Item {A}.
Inductive memb (A : Type) :=
  Memb (pre : text) (key : text) (post : text) (pre2 : text) (v : A) (post2 : text).
Arguments Memb {A}.

Inductive cst :=
| CNull
| CTrue
| CFalse
| CNum (raw : text)
| CStr (body : text)
| CArr (w : text) (es : list (item cst))     (* [w]: whitespace after the bracket *)
| CObj (w : text) (ms : list (memb cst)).

Definition i_val {A} (x : item A) : A := match x with Item _ v _ => v end.
Definition m_key {A} (x : memb A) : text := match x with Memb _ k _ _ _ _ => k end.
Definition m_val {A} (x : memb A) : A := match x with Memb _ _ _ _ v _ => v end.

(** Comma separated concatenation. *)
Fixpoint commas (l : list text) : text :=
  match l with
  | [] => []
  | [x] => x
  | x :: t => x ++ 0x2C%N :: commas t
  end.

Definition render_item {A} (f : A -> text) (x : item A) : text :=
  match x with Item a v b => a ++ f v ++ b end.
Definition render_memb {A} (f : A -> text) (x : memb A) : text :=
  match x with Memb a k b c v d => a ++ quoted k ++ b ++ 0x3A%N :: c ++ f v ++ d end.

Fixpoint render (c : cst) : text :=
  match c with
  | CNull => t_null
  | CTrue => t_true
  | CFalse => t_false
  | CNum n => n
  | CStr b => quoted b
  | CArr w es => 0x5B%N :: w ++ commas (map (render_item render) es) ++ [0x5D%N]
  | CObj w ms => 0x7B%N :: w ++ commas (map (render_memb render) ms) ++ [0x7D%N]
  end.

(** Well-formed trees. *)
Inductive wf : cst -> Prop :=
| wf_null : wf CNull
| wf_true : wf CTrue
| wf_false : wf CFalse
| wf_num : forall n, number n -> wf (CNum n)
| wf_str : forall b, chars b -> wf (CStr b)
| wf_arr : forall w es, ws w -> Forall wf_item es -> wf (CArr w es)
| wf_obj : forall w ms, ws w -> Forall wf_memb ms -> wf (CObj w ms)
with wf_item : item cst -> Prop :=
| wf_item_intro : forall a v b, ws a -> wf v -> ws b -> wf_item (Item a v b)
with wf_memb : memb cst -> Prop :=
| wf_memb_intro : forall a k b c v d,
    ws a -> chars k -> ws b -> ws c -> wf v -> ws d -> wf_memb (Memb a k b c v d).

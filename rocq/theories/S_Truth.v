(** Specification vocabulary: when a value satisfies a comparison, for values of every
    kind and right-hand sides of every form. *)
From Coq Require Import List NArith ZArith.
From Verif Require Import M_Base M_Util M_Value S_Json S_Str S_Get S_Path S_Query S_Num S_Float.
From Coq Require Import Reals.
Import ListNotations.

(** How a right-hand side is read: one in quotes loses them and its escapes, unless
    there is nothing between the quotes; any other one is taken as it is written. *)
Inductive rhs_reads : text -> text -> Prop :=
| rr_plain : forall b, b <> [] -> ~ In 0x5C%N b -> rhs_reads (quoted b) b
| rr_escaped : forall b r, In 0x5C%N b -> unescape (quoted b) = Ok r -> rhs_reads (quoted b) r
| rr_bare : forall r, (forall b, b <> [] -> r <> quoted b) -> rhs_reads r r.

(** Strings: by their bytes, or as patterns. *)
Definition string_sat (s : text) (o : qop) (r : text) : Prop :=
  match o with
  | QLike => glob byte_char (bare_qm r) s
  | QNotLike => ~ glob byte_char (bare_qm r) s
  | _ => op_rel text_lt o s r
  end.
(** Numbers: as real numbers, NaN being different from everything. *)
Definition number_sat (x : option R) (o : qop) (y : option R) : Prop :=
  match x, y with
  | Some a, Some b => op_rel Rlt o a b
  | _, _ => o = QNe
  end.
(** Booleans: equality with the word, and the order false < true for < and >; the
    operators <= and >= do not look at the right-hand side. *)
Definition bool_sat (a : bool) (o : qop) (r : text) : Prop :=
  match o with
  | QEq | QEqEq => r = bool_text a
  | QNe => r <> bool_text a
  | QLt => a = false /\ r = bool_text true
  | QGt => a = true /\ r = bool_text false
  | QLe => a = false
  | QGe => a = true
  | QLike | QNotLike => False
  end.
(** The value [x] satisfies [o r]; a tilde asks for the truth value of [x], whatever
    its kind and even when it does not exist. *)
Inductive satisfies (x : value) (o : qop) : text -> Prop :=
| sat_tilde : forall u a, v_bool x = Ok a -> bool_sat a o u -> satisfies x o (0x7E%N :: u)
| sat_string : forall r s, hd 0%N r <> 0x7E%N -> v_exists x = true -> v_kind x = KString -> v_str x = Ok s ->
    string_sat s o r -> satisfies x o r
| sat_number : forall r a b, hd 0%N r <> 0x7E%N -> v_exists x = true -> v_kind x = KNumber ->
    f64_reads (v_json x) a -> f64_reads r b -> number_sat a o b -> satisfies x o r
| sat_bool : forall r a, hd 0%N r <> 0x7E%N -> v_exists x = true -> v_kind x = bool_kind a ->
    bool_sat a o r -> satisfies x o r.

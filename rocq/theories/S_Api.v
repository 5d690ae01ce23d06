(** The values a user of the crate can hold: results of [parse] and [get], results of
    the method [get] on such values, and what [each] and [array] hand out. *)
From Verif Require Import M_Base M_Util M_Num M_Value M_Get.

(** A callback for [each] that records its arguments and never stops. *)
Definition record_args (st : list (value * value)) (k x : value) : R (list (value * value) * bool) :=
  Ok ((k, x) :: st, true).

Inductive returned : value -> Prop :=
| ret_parse : forall json v, parse json = Ok v -> returned v
| ret_get : forall json path v, get json path = Ok v -> returned v
| ret_vget : forall u path v, returned u -> v_get u path = Ok v -> returned v
| ret_key : forall u l k x, returned u -> v_each u record_args [] = Ok l -> In (k, x) l -> returned k
| ret_value : forall u l k x, returned u -> v_each u record_args [] = Ok l -> In (k, x) l -> returned x
| ret_elem : forall u l x, returned u -> v_array u = Ok l -> In x l -> returned x.

(** Every accessor of [Value] returns normally. *)
Record accessors_return (v : value) : Prop := mkAccessors {
  ar_str : exists x, v_str v = Ok x;
  ar_bool : exists x, v_bool v = Ok x;
  ar_f64 : exists x, v_f64 v = Ok x;
  ar_f32 : exists x, v_f32 v = Ok x;
  ar_i64 : exists x, v_i64 v = Ok x;
  ar_i32 : exists x, v_i32 v = Ok x;
  ar_i16 : exists x, v_i16 v = Ok x;
  ar_i8 : exists x, v_i8 v = Ok x;
  ar_u64 : exists x, v_u64 v = Ok x;
  ar_u32 : exists x, v_u32 v = Ok x;
  ar_u16 : exists x, v_u16 v = Ok x;
  ar_u8 : exists x, v_u8 v = Ok x;
}.

(** The comparison [a ? c] implied by [a ? b] and [b ? c], where it is determined. *)
Definition then_cmp (x y : comparison) : option comparison :=
  match x, y with
  | Eq, c => Some c
  | c, Eq => Some c
  | Lt, Lt => Some Lt
  | Gt, Gt => Some Gt
  | _, _ => None
  end.

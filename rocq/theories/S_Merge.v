(** Specification: the children of the elements of an array, in terms of array() and
    each(). *)
From Coq Require Import List NArith.
From Verif Require Import M_Base M_Value S_Api.
Import ListNotations.

(** The elements with those that are arrays opened. *)
Inductive opened : list value -> list value -> Prop :=
| op_nil : opened [] []
| op_array : forall x ys l zs, v_kind x = KArray -> v_array x = Ok ys -> opened l zs -> opened (x :: l) (ys ++ zs)
| op_other : forall x l zs, v_kind x <> KArray -> opened l zs -> opened (x :: l) (x :: zs).

(** The members of the elements that are objects.  ([record_args] puts what is visited in
    front of the list.) *)
Inductive gathered : list value -> list (value * value) -> Prop :=
| ga_nil : gathered [] []
| ga_object : forall x kvs l kzs, v_kind x = KObject -> v_each x record_args [] = Ok (rev kvs) -> gathered l kzs -> gathered (x :: l) (kvs ++ kzs)
| ga_other : forall x l kzs, v_kind x <> KObject -> gathered l kzs -> gathered (x :: l) kzs.

(** The elements with those that are arrays opened, and the arrays inside those, and so on. *)
Inductive leaves : list value -> list value -> Prop :=
| lv_nil : leaves [] []
| lv_array : forall x xs ys l zs, v_kind x = KArray -> v_array x = Ok xs -> leaves xs ys -> leaves l zs -> leaves (x :: l) (ys ++ zs)
| lv_other : forall x l zs, v_kind x <> KArray -> leaves l zs -> leaves (x :: l) (x :: zs).

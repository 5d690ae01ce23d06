(** Specification vocabulary for the conversions of values to numbers, and for the
    order of values. *)
From Coq Require Import List NArith.
From Verif Require Import M_Base M_Util M_Value S_Json S_Get.
Import ListNotations.

(** The text a value is converted from: numbers as written, strings decoded. *)
Inductive num_text (v : value) : text -> Prop :=
| nt_number : v_kind v = KNumber -> num_text v (v_json v)
| nt_string : forall b s, shows v (CStr b) -> v_str v = Ok s -> num_text v s.

(** The order of the kinds. *)
Definition kinds_in_order : list kind := [KNull; KFalse; KNumber; KString; KTrue; KArray; KObject].
Definition kind_lt (a b : kind) : Prop :=
  exists i j, i < j /\ nth_error kinds_in_order i = Some a /\ nth_error kinds_in_order j = Some b.

(** [c] is the outcome of comparing [x] with [y] by the order [lt]. *)
Definition cmp_by {A} (lt : A -> A -> Prop) (x y : A) (c : comparison) : Prop :=
  (c = Lt <-> lt x y) /\ (c = Eq <-> x = y) /\ (c = Gt <-> lt y x).

(** The options that the argument of @pretty stands for. *)
From Verif Require Import M_Base M_Util M_Num M_Value M_Get M_Pretty S_Json.
From Coq Require Import String.

(** [field arg name read default x]: the option [x] is [read] of the field [name] of
    the argument if that exists, else [default]. *)
Definition field {A} (arg name : text) (read : value -> R A) (default x : A) : Prop :=
  exists v, M_Get.get arg name = Ok v /\ if v_exists v then read v = Ok x else x = default.
(** The options of @pretty:arg; the defaults are those of pretty(). *)
Record pretty_arg (arg : text) (o : popts) : Prop := {
  pa_indent : field arg (bs "indent") v_str (bs "  ") (o_indent o);
  pa_prefix : field arg (bs "prefix") v_str (bs "") (o_prefix o);
  pa_sort : field arg (bs "sortKeys") v_bool false (o_sort o);
  pa_width : field arg (bs "width") v_u32 80%Z (o_width o);
}.

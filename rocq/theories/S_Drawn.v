(** Specification: the values obtained from a text by parse, get, each and array, with
    paths of some kind. *)
From Coq Require Import List NArith.
From Verif Require Import M_Base M_Value M_Get S_Json S_Api.

Inductive drawn (ok : text -> Prop) (json : text) : value -> Prop :=
| dr_parse : forall v, parse json = Ok v -> drawn ok json v
| dr_get : forall p v, ok p -> get json p = Ok v -> drawn ok json v
| dr_vget : forall u p v, drawn ok json u -> ok p -> v_get u p = Ok v -> drawn ok json v
| dr_key : forall u l k x, drawn ok json u -> v_each u record_args nil = Ok l -> In (k, x) l -> drawn ok json k
| dr_value : forall u l k x, drawn ok json u -> v_each u record_args nil = Ok l -> In (k, x) l -> drawn ok json x
| dr_elem : forall u l x, drawn ok json u -> v_array u = Ok l -> In x l -> drawn ok json x.

(** Specification: doing the same with two texts, and getting the same. *)
From Verif Require Import M_Base M_Util M_Num M_Value M_Get S_Json S_Tree S_Get S_Api S_Taken.

(** The pairs of values obtained by the same calls from [s] and from [s']. *)
Inductive taken2 (s s' : text) : value -> value -> Prop :=
| t2_parse : forall v v', parse s = Ok v -> parse s' = Ok v' -> taken2 s s' v v'
| t2_get : forall p v v', tame p -> get s p = Ok v -> get s' p = Ok v' -> taken2 s s' v v'
| t2_vget : forall u u' p v v', taken2 s s' u u' -> tame p -> v_get u p = Ok v -> v_get u' p = Ok v' -> taken2 s s' v v'
| t2_key : forall u u' l l' n k x k' x', taken2 s s' u u' -> v_each u record_args [] = Ok l -> v_each u' record_args [] = Ok l' ->
    nth_error l n = Some (k, x) -> nth_error l' n = Some (k', x') -> taken2 s s' k k'
| t2_value : forall u u' l l' n k x k' x', taken2 s s' u u' -> v_each u record_args [] = Ok l -> v_each u' record_args [] = Ok l' ->
    nth_error l n = Some (k, x) -> nth_error l' n = Some (k', x') -> taken2 s s' x x'
| t2_elem : forall u u' l l' n x x', taken2 s s' u u' -> v_array u = Ok l -> v_array u' = Ok l' ->
    nth_error l n = Some x -> nth_error l' n = Some x' -> taken2 s s' x x'.

(** Two values that differ at most in the whitespace of an array or object. *)
Record same (v v' : value) : Prop := mkAlike {
  sm_exists : v_exists v = v_exists v';
  sm_kind : v_kind v = v_kind v';
  sm_absent : v_exists v = false -> v_json v = [] /\ v_json v' = [];
  sm_tokens : v_exists v = true -> exists t, reads (v_json v) t /\ reads (v_json v') t;
  sm_scalar : v_kind v <> KArray -> v_kind v <> KObject -> v_json v = v_json v' /\ v_str v = v_str v';
  sm_bool : v_bool v = v_bool v';
  sm_f64 : v_f64 v = v_f64 v';
  sm_f32 : v_f32 v = v_f32 v';
  sm_i64 : v_i64 v = v_i64 v';
  sm_i32 : v_i32 v = v_i32 v';
  sm_i16 : v_i16 v = v_i16 v';
  sm_i8 : v_i8 v = v_i8 v';
  sm_u64 : v_u64 v = v_u64 v';
  sm_u32 : v_u32 v = v_u32 v';
  sm_u16 : v_u16 v = v_u16 v';
  sm_u8 : v_u8 v = v_u8 v';
  sm_array : forall l l', v_array v = Ok l -> v_array v' = Ok l' -> length l = length l';
  sm_each : forall l l', v_each v record_args [] = Ok l -> v_each v' record_args [] = Ok l' -> length l = length l';
}.

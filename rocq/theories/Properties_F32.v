(** Property C72: how good f32() is. *)
From Coq Require Import Reals Lra Lia ZArith String List.
From Coq.Floats Require Import SpecFloat.
From Flocq Require Import Core BinarySingleNaN.
From Verif Require Import M_Base M_Util M_Num M_Value M_Get S_Json S_Get S_Num S_Conv P_F32.
Import ListNotations.
Open Scope list_scope.
Open Scope nat_scope.
Delimit Scope R_scope with R.

(** C72: f32() is one of the two binary32 values around the number written: no binary32
    value [z] (with +-2^128 for the infinities) lies strictly between the two. *)
Theorem C72_f32_partial : forall v s m e, num_text v s -> denotes s m e ->
  exists y, v_f32 v = Ok y /\ is_float 24 128 y /\
    forall z, generic_format radix2 (FLT_exp (-149) 24) z -> (Rabs z <= bpow radix2 128)%R ->
      ((z <= num_val m e -> z <= float_val 128 y) /\ (num_val m e <= z -> float_val 128 y <= z))%R.
Proof. exact f32_faithful. Qed.
Print Assumptions C72_f32_partial.
(** So it is the number itself when that has a binary32 value. *)
Theorem C72_f32_exact : forall v s m e, num_text v s -> denotes s m e ->
  generic_format radix2 (FLT_exp (-149) 24) (num_val m e) -> (Rabs (num_val m e) <= bpow radix2 128)%R ->
  exists y, v_f32 v = Ok y /\ is_float 24 128 y /\ float_val 128 y = num_val m e.
Proof. exact f32_exact. Qed.
Print Assumptions C72_f32_exact.
(** It is not the nearest of them: the text is rounded to binary64 first, and then
    again.  The number just above 1 + 2^-24 becomes 1. *)
Definition above : list N := bs "1.0000000596046447753906250000001".
Theorem C72_f32_refuted : exists j v s m e y, get j (bs "0") = Ok v /\ num_text v s /\ denotes s m e /\
  v_f32 v = Ok y /\ is_float 24 128 y /\ float_val 128 y <> f32_val (num_val m e).
Proof.
  exists (bs "[" ++ above ++ bs "]"). eexists. exists above, 10000000596046447753906250000001%Z, (-31)%Z.
  exists (S754_finite false 8388608 (-23)). split; [vm_compute; reflexivity|].
  split; [apply nt_number; vm_compute; reflexivity|].
  split.
  { apply (den_frac false (bs "1") (bs "0000000596046447753906250000001") [] 0%Z);
      [split; [discriminate|repeat constructor; vm_compute; discriminate]|split; [discriminate|repeat constructor; vm_compute; discriminate]|apply ev_none]. }
  split; [vm_compute; reflexivity|]. split; [split; vm_compute; reflexivity|].
  intros E. apply (f32_above (num_val 10000000596046447753906250000001 (-31))).
  - unfold num_val. change (powerRZ 10 (-31)) with (/ (10 ^ 31))%R. lra.
  - rewrite <- E. cbn [float_val SF2R]. unfold F2R. cbn [Fnum Fexp cond_Zopp]. change (bpow radix2 (-23)) with (/ 8388608)%R. lra.
Qed.
Print Assumptions C72_f32_refuted.
(** 0.1 has no binary32 value, 0.75 has one. *)
Example C72_case : exists v w, get (bs "[0.1,""75e-2""]") (bs "0") = Ok v /\ num_text v (bs "0.1") /\ denotes (bs "0.1") 1%Z (-1)%Z /\
  get (bs "[0.1,""75e-2""]") (bs "1") = Ok w /\ num_text w (bs "75e-2") /\ denotes (bs "75e-2") 75%Z (-2)%Z /\
  generic_format radix2 (FLT_exp (-149) 24) (num_val 75 (-2)).
Proof.
  eexists. eexists. split; [vm_compute; reflexivity|]. split; [apply nt_number; vm_compute; reflexivity|].
  split; [apply (den_frac false (bs "0") (bs "1") [] 0%Z); [split; [discriminate|repeat constructor; vm_compute; discriminate]|split; [discriminate|repeat constructor; vm_compute; discriminate]|apply ev_none]|].
  split; [vm_compute; reflexivity|]. split; [apply (nt_string _ (bs "75e-2")); [split; vm_compute; reflexivity | vm_compute; reflexivity]|].
  split; [apply (den_int false (bs "75") (bs "e-2") (-2)%Z); [split; [discriminate|repeat constructor; vm_compute; discriminate]|]; apply (ev_minus 0x65%N (bs "2")); [auto|]; split; [discriminate | repeat constructor; vm_compute; discriminate]|].
  replace (num_val 75 (-2)) with (F2R (Float radix2 3 (-2))).
  - apply generic_format_FLT. exists (Float radix2 3 (-2)); [reflexivity|cbn; lia|cbn; lia].
  - unfold num_val, F2R. cbn [Fnum Fexp]. change (bpow radix2 (-2)) with (/ 4)%R. change (powerRZ 10 (-2)) with (/ (10 ^ 2))%R. lra.
Qed.

(** C92: how the integers made of one value are related. *)
From Coq Require Import Reals ZArith String List.
From Coq.Floats Require Import SpecFloat.
From Flocq Require Import Core.
From Verif Require Import M_Base M_Util M_Num M_Value M_Get S_Json S_Get S_Num P_Fit.
Import ListNotations.
Open Scope list_scope.
Delimit Scope R_scope with R.

(** For values of any kind, with any text: u64() is i64() with 0 for negative numbers, until
    i64() reaches the largest value it has; from there on u64() is not less. *)
Theorem C92_unsigned : forall v i, v_i64 v = Ok i -> exists k, v_u64 v = Ok k /\ (- 2 ^ 63 <= i < 2 ^ 63)%Z /\ (0 <= k < 2 ^ 64)%Z /\
  ((i < 2 ^ 63 - 1)%Z -> k = Z.max 0 i) /\ ((i = 2 ^ 63 - 1)%Z -> (i <= k)%Z).
Proof. exact fit_agree. Qed.
Print Assumptions C92_unsigned.
(** The narrow unsigned conversions can be had from i64(). *)
Theorem C92_narrow : forall v i, v_i64 v = Ok i -> v_u32 v = Ok (clamp 0 4294967295 i) /\ v_u16 v = Ok (clamp 0 65535 i) /\ v_u8 v = Ok (clamp 0 255 i).
Proof. exact fit_narrow. Qed.
Print Assumptions C92_narrow.
(** What fits into all of the types is the same in all of them. *)
Theorem C92_small : forall v i, v_i64 v = Ok i -> (0 <= i <= 127)%Z -> Forall (fun f : value -> M_Base.R Z => f v = Ok i) [v_i64; v_i32; v_i16; v_i8; v_u64; v_u32; v_u16; v_u8].
Proof. exact fit_small. Qed.
Print Assumptions C92_small.
(** The two return together. *)
Theorem C92_return : forall v, (exists i, v_i64 v = Ok i) <-> (exists k, v_u64 v = Ok k).
Proof. exact fit_ok. Qed.
Print Assumptions C92_return.

(** i64() is f64() without its fraction as long as it has at most 53 bits, or 0 when f64() is
    not a number ... *)
Theorem C92_float : forall v i, v_i64 v = Ok i -> (Z.abs i <= 2 ^ 53)%Z ->
  exists x, v_f64 v = Ok x /\ ((x = S754_nan /\ i = 0%Z) \/ (is_float 53 1024 x /\ Ztrunc (float_val 1024 x) = i)).
Proof. exact fit_float. Qed.
Print Assumptions C92_float.
(** ... and with more bits it need not be. *)
Theorem C92_float_refuted : exists v i x, parse (bs "9007199254740993") = Ok v /\ v_i64 v = Ok i /\ v_f64 v = Ok x /\ Ztrunc (float_val 1024 x) <> i.
Proof.
  assert (P : exists v, parse (bs "9007199254740993") = Ok v) by (eexists; vm_compute; reflexivity). destruct P as (v & E).
  exists v, 9007199254740993%Z, (S754_finite false 4503599627370496 1). split; [exact E|]. vm_compute in E. injection E as <-.
  split; [vm_compute; reflexivity|]. split; [vm_compute; reflexivity|]. change (float_val 1024 (S754_finite false 4503599627370496 1)) with (IZR 4503599627370496 * 2)%R.
  rewrite <- mult_IZR, Ztrunc_IZR. discriminate.
Qed.
Print Assumptions C92_float_refuted.

(** A fraction, a string that overflows an i64, a negative number, and [true]. *)
Definition fdoc : list N := bs "[7.9e1, ""18446744073709551615"", -3, true, [1]]".
Example C92_case : exists a b c d e, get fdoc (bs "0") = Ok a /\ get fdoc (bs "1") = Ok b /\ get fdoc (bs "2") = Ok c /\ get fdoc (bs "3") = Ok d /\ get fdoc (bs "4") = Ok e /\
  v_i64 a = Ok 79%Z /\ v_u8 a = Ok 79%Z /\ v_i64 b = Ok (2 ^ 63 - 1)%Z /\ v_u64 b = Ok (2 ^ 64 - 1)%Z /\ v_u16 b = Ok 65535%Z /\
  v_i64 c = Ok (-3)%Z /\ v_u64 c = Ok 0%Z /\ v_u8 c = Ok 0%Z /\ v_i64 d = Ok 1%Z /\ v_u32 d = Ok 1%Z /\ v_i64 e = Ok 0%Z.
Proof. do 5 eexists. do 15 (split; [vm_compute; reflexivity|]). vm_compute. reflexivity. Qed.

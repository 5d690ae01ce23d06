(** Properties C50 to C53: conversions to numbers.
    [num_text v s] (S_Conv) says that [s] is the text of the number or string [v];
    [denotes s m e] and [f64_val] (S_Num) that it is written for the number m*10^e, and
    what the nearest binary64 value of a real number is. *)
From Coq Require Import Reals Lra ZArith String List.
From Coq.Floats Require Import SpecFloat.
From Flocq Require Import Core BinarySingleNaN.
From Verif Require Import M_Base M_Util M_Num M_Value M_Get S_Json S_Get S_Num S_Conv P_Num P_QNum P_Wf P_Conv P_Order.
Import ListNotations.
Open Scope list_scope.
Open Scope nat_scope.
Delimit Scope R_scope with R.

(** C50: f64() is the binary64 value nearest to the number written (ties to even), with
    its sign, also for zeros. *)
Theorem C50_f64 : forall v s m e, num_text v s -> denotes s m e ->
  exists x, v_f64 v = Ok x /\ is_float 53 1024 x /\ float_val 1024 x = f64_val (num_val m e) /\
    (sign_SF x = true <-> exists t, s = 0x2D%N :: t).
Proof. exact f64_nearest. Qed.
Print Assumptions C50_f64.
(** So it is exact for integers up to 2^53. *)
Theorem C50_f64_int : forall v s z, num_text v s -> int_literal s z -> (Z.abs z <= 2 ^ 53)%Z ->
  exists x, v_f64 v = Ok x /\ is_float 53 1024 x /\ float_val 1024 x = IZR z.
Proof.
  intros v s z Hv Hz Hb. destruct (C50_f64 v s z 0 Hv (int_literal_denotes _ _ Hz)) as (x & E & G & V & _).
  exists x. split; auto. split; auto. rewrite V, num_val_int. apply f64_val_int, Hb.
Qed.
Print Assumptions C50_f64_int.
(** The string "-2.5e-1" inside a document: -1/4. *)
Example C50_case : exists v x, get (bs "[7,""-2.5e-1""]") (bs "1") = Ok v /\ num_text v (bs "-2.5e-1") /\
  denotes (bs "-2.5e-1") (-25)%Z (-2)%Z /\ v_f64 v = Ok x /\ SF2R radix2 x = (- / 4)%R.
Proof.
  eexists. eexists. split; [vm_compute; reflexivity|]. split.
  - apply (nt_string _ (bs "-2.5e-1")); [split; vm_compute; reflexivity | vm_compute; reflexivity].
  - split.
    + apply (den_frac true (bs "2") (bs "5") (bs "e-1") (-1)%Z); try (split; [discriminate | repeat constructor; vm_compute; discriminate]).
      apply (ev_minus 0x65%N (bs "1")); [auto|]. split; [discriminate | repeat constructor; vm_compute; discriminate].
    + split; [vm_compute; reflexivity|]. cbn [SF2R]. unfold F2R. cbn [Fnum Fexp cond_Zopp].
      change (bpow radix2 (-54)) with (/ IZR (2 ^ 54))%R. change (Z.opp 4503599627370496) with (- 4503599627370496)%Z.
      change (2 ^ 54)%Z with (18014398509481984)%Z. lra.
Qed.

(** C51: i64() and u64() of integers saturate ... *)
Theorem C51_i64_int : forall v s z, num_text v s -> int_literal s z -> v_i64 v = Ok (clamp (- 2 ^ 63) (2 ^ 63 - 1) z).
Proof. exact i64_saturates. Qed.
Print Assumptions C51_i64_int.
Theorem C51_u64_int : forall v s z, num_text v s -> int_literal s z -> v_u64 v = Ok (clamp 0 (2 ^ 64 - 1) z).
Proof. exact u64_saturates. Qed.
Print Assumptions C51_u64_int.
(** ... and for numbers with a fraction or an exponent they drop the fraction of the
    nearest binary64 value and saturate. *)
Theorem C51_i64_frac : forall v s m e, num_text v s -> denotes s m e -> (forall z, ~ int_literal s z) ->
  v_i64 v = Ok (clamp (- 2 ^ 63) (2 ^ 63 - 1) (Ztrunc (f64_val (num_val m e)))).
Proof. exact i64_truncates. Qed.
Print Assumptions C51_i64_frac.
Theorem C51_u64_frac : forall v s m e, num_text v s -> denotes s m e -> (forall z, ~ int_literal s z) ->
  v_u64 v = Ok (clamp 0 (2 ^ 64 - 1) (Ztrunc (f64_val (num_val m e)))).
Proof. exact u64_truncates. Qed.
Print Assumptions C51_u64_frac.
Definition i64_at (json i : bytes) : R Z := v <- get json i ;; v_i64 v.
Definition u64_at (json i : bytes) : R Z := v <- get json i ;; v_u64 v.
Example C51_case :
  let j := bs "[-2.9e0, 9223372036854775808, -1, 1e30, -99999999999999999999]" in
  i64_at j (bs "0") = Ok (-2)%Z /\ i64_at j (bs "1") = Ok (2 ^ 63 - 1)%Z /\ u64_at j (bs "1") = Ok (2 ^ 63)%Z /\
  u64_at j (bs "2") = Ok 0%Z /\ u64_at j (bs "3") = Ok (2 ^ 64 - 1)%Z /\ i64_at j (bs "4") = Ok (- 2 ^ 63)%Z.
Proof. vm_compute. repeat split. Qed.
(** [-2.9e0] is a text for C51_i64_frac. *)
Example C51_frac_case : (forall z, ~ int_literal (bs "-2.9e0") z) /\ exists m e, denotes (bs "-2.9e0") m e.
Proof.
  split.
  - intros z H. inversion H as [ds [_ D]|ds [_ D]]; subst.
    + inversion D as [|? ? X]; subst. vm_compute in X. destruct X as [X _]. apply X. reflexivity.
    + inversion D as [|? ? _ D2]; subst. inversion D2 as [|? ? X]; subst. vm_compute in X. destruct X as [X _]. apply X. reflexivity.
  - apply number_denotes, numberb_ok. reflexivity.
Qed.

(** C52: the other kinds: true is 1, and null, false, arrays, objects and missing values
    are 0. *)
Theorem C52_true : forall v, v_kind v = KTrue -> v_i64 v = Ok 1%Z /\ v_u64 v = Ok 1%Z /\
  exists x, v_f64 v = Ok x /\ is_float 53 1024 x /\ float_val 1024 x = 1%R.
Proof. exact true_is_one. Qed.
Print Assumptions C52_true.
Theorem C52_zero : forall v, v_kind v = KNull \/ v_kind v = KFalse \/ v_kind v = KArray \/ v_kind v = KObject ->
  v_i64 v = Ok 0%Z /\ v_u64 v = Ok 0%Z /\ v_f64 v = Ok (S754_zero false).
Proof. exact others_are_zero. Qed.
Print Assumptions C52_zero.
(** So is a string that does not start with a digit, a sign, a dot, I, i, N or n. *)
Theorem C52_text : forall v b s, shows v (CStr b) -> v_str v = Ok s ->
  match s with
  | [] => True
  | c :: _ => ~ digit c /\ ~ In c [0x2B; 0x2D; 0x2E; 0x49; 0x69; 0x4E; 0x6E]%N
  end ->
  v_i64 v = Ok 0%Z /\ v_u64 v = Ok 0%Z /\ v_f64 v = Ok (S754_zero false).
Proof. exact not_number_zero. Qed.
Print Assumptions C52_text.
Example C52_case :
  let j := bs "[true, null, [5], {""a"":5}, ""x5"", """"]" in
  i64_at j (bs "0") = Ok 1%Z /\ i64_at j (bs "1") = Ok 0%Z /\ i64_at j (bs "2") = Ok 0%Z /\ i64_at j (bs "3") = Ok 0%Z /\
  i64_at j (bs "4") = Ok 0%Z /\ i64_at j (bs "5") = Ok 0%Z /\ i64_at j (bs "6") = Ok 0%Z.
Proof. vm_compute. repeat split. Qed.

(** C53: f32() is the binary32 value nearest to f64(). *)
Theorem C53_f32 : forall v x, v_f64 v = Ok x -> is_float 53 1024 x ->
  exists y, v_f32 v = Ok y /\ is_float 24 128 y /\ float_val 128 y = f32_val (float_val 1024 x).
Proof. exact f32_nearest. Qed.
Print Assumptions C53_f32.
(** 16777217 = 2^24 + 1 is not a binary32 value: the tie goes to the even neighbour. *)
Example C53_case : exists v x, parse (bs "16777217") = Ok v /\ v_f64 v = Ok x /\ is_float 53 1024 x /\
  v_f32 v = Ok (S754_finite false 8388608 1).
Proof.
  eexists. eexists. split; [vm_compute; reflexivity|]. split; [vm_compute; reflexivity|].
  split; [split; vm_compute; reflexivity|]. vm_compute. reflexivity.
Qed.

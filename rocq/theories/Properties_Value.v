(** Properties C21, C22, C27, C28, C31, C32, C33: values and their accessors.
    [shows v c] (S_Get.v) says that exists(), json(), kind() and str() of [v] are
    those of the piece [c] of a document. *)
From Coq Require Import String List.
From Verif Require Import M_Base S_Json S_Get M_Util M_Value P_Wf P_Value P_Num.

(** The documents used in the examples. *)
Definition arr1 : cst :=
  CArr [] [Item [] (CNum (bs "1")) []; Item (bs " ") (CStr (bs "x\n")) []; Item (bs " ") (CObj [] []) []].
Definition obj1 : cst :=
  CObj [] [Memb [] (bs "a") [] (bs " ") arr1 (bs " "); Memb (bs " ") (bs "b") (bs " ") [] CNull []].
Example arr1_wf : wf arr1 /\ render arr1 = bs "[1, ""x\n"", {}]".
Proof. split; [apply wfb_wf|]; vm_compute; reflexivity. Qed.
Example obj1_wf : wf obj1 /\ render obj1 = bs "{""a"": [1, ""x\n"", {}] , ""b"" :null}".
Proof. split; [apply wfb_wf|]; vm_compute; reflexivity. Qed.

(** C27 and C28 for [parse]: a whole document surrounded by whitespace.  (json() of
    an array or object includes the trailing whitespace.) *)
Theorem C27_C28_parse : forall w1 c w2, ws w1 -> wf c -> ws w2 ->
  exists v, parse (w1 ++ render c ++ w2) = Ok v
  /\ v_exists v = true
  /\ v_kind v = kind_of c
  /\ v_json v = (if is_container c then render c ++ w2 else render c)
  /\ (is_container c = false -> v_str v = text_of c).
Proof. exact parse_doc. Qed.
Print Assumptions C27_C28_parse.
Example C27_C28_parse_case :
  exists v, parse (bs "  " ++ render (CStr (bs "x\n"))) = Ok v /\ v_kind v = KString /\ v_str v = Ok (bs "x" ++ [10])%N.
Proof. eexists. split; [vm_compute; reflexivity|]. split; vm_compute; reflexivity. Qed.

(** C21: each() on an array, on an object and on anything else.  [r] is whatever
    follows the value (empty for results of get, whitespace for parse); [step] is
    any callback with any state and stopping behaviour, which may also panic. *)
Theorem C21_each_array : forall v w es r,
  wf (CArr w es) -> v_kind v = KArray -> v_json v = render (CArr w es) ++ r ->
  exists vs, Forall2 (fun e x => shows x (i_val e)) es vs
  /\ v_array v = Ok vs
  /\ forall S (step : S -> value -> value -> R (S * bool)) st,
       v_each v step st = visit (fun st x => step st value_default x) st vs.
Proof. exact each_array. Qed.
Print Assumptions C21_each_array.

Theorem C21_each_object : forall v w ms r,
  wf (CObj w ms) -> v_kind v = KObject -> v_json v = render (CObj w ms) ++ r ->
  exists kvs, Forall2 (fun m kv => shows (fst kv) (CStr (m_key m)) /\ shows (snd kv) (m_val m)) ms kvs
  /\ forall S (step : S -> value -> value -> R (S * bool)) st,
       v_each v step st = visit (fun st kv => step st (fst kv) (snd kv)) st kvs.
Proof. exact each_object. Qed.
Print Assumptions C21_each_object.

Theorem C21_each_scalar : forall v,
  v_exists v = true -> v_kind v <> KArray -> v_kind v <> KObject ->
  exists x, v_json x = v_json v /\ v_kind x = v_kind v /\ v_str x = v_str v
  /\ forall S (step : S -> value -> value -> R (S * bool)) st,
       v_each v step st = visit (fun st x => step st value_default x) st [x].
Proof. exact each_scalar. Qed.
Print Assumptions C21_each_scalar.

(** A callback that collects keys and texts and stops after the first member. *)
Example C21_case :
  exists v, parse (render obj1) = Ok v /\ v_kind v = KObject /\ v_json v = render obj1 ++ []
  /\ v_each v (fun acc k x => Ok (acc ++ [(v_json k, v_json x)], false)) []
     = Ok [(bs """a""", render arr1)]
  /\ v_each v (fun acc k x => Ok (acc ++ [(v_json k, v_json x)], true)) []
     = Ok [(bs """a""", render arr1); (bs """b""", bs "null")].
Proof. eexists. split; [vm_compute; reflexivity|]. repeat split; vm_compute; reflexivity. Qed.

(** C22: array() is the list of elements; empty for the other kinds. *)
Theorem C22_array : forall v w es r,
  wf (CArr w es) -> v_kind v = KArray -> v_json v = render (CArr w es) ++ r ->
  exists vs, v_array v = Ok vs /\ Forall2 (fun e x => shows x (i_val e)) es vs.
Proof. exact array_elements. Qed.
Print Assumptions C22_array.

Theorem C22_array_other : forall v, v_kind v <> KArray -> v_array v = Ok [].
Proof. exact array_other. Qed.
Print Assumptions C22_array_other.
Example C22_case : exists v vs, parse (render arr1 ++ bs " ") = Ok v /\ v_kind v = KArray /\ v_array v = Ok vs
  /\ map v_json vs = [bs "1"; bs """x\n"""; bs "{}"].
Proof. do 2 eexists. repeat split; vm_compute; reflexivity. Qed.

(** C31: 64-bit integers are exact, in numbers and in strings. *)
Theorem C31_i64_number : forall v s z,
  v_kind v = KNumber -> v_json v = s -> int_literal s z -> (- 2 ^ 63 <= z < 2 ^ 63)%Z -> v_i64 v = Ok z.
Proof. exact i64_number. Qed.
Print Assumptions C31_i64_number.

Theorem C31_u64_number : forall v s z,
  v_kind v = KNumber -> v_json v = s -> int_literal s z -> (0 <= z < 2 ^ 64)%Z -> v_u64 v = Ok z.
Proof. exact u64_number. Qed.
Print Assumptions C31_u64_number.

Theorem C31_i64_string : forall v b s z,
  shows v (CStr b) -> v_str v = Ok s -> int_literal s z -> (- 2 ^ 63 <= z < 2 ^ 63)%Z -> v_i64 v = Ok z.
Proof. exact i64_string. Qed.
Print Assumptions C31_i64_string.

Theorem C31_u64_string : forall v b s z,
  shows v (CStr b) -> v_str v = Ok s -> int_literal s z -> (0 <= z < 2 ^ 64)%Z -> v_u64 v = Ok z.
Proof. exact u64_string. Qed.
Print Assumptions C31_u64_string.

(** Every integer has a literal, which is a JSON number. *)
Theorem C31_literals_exist : forall z, exists s, int_literal s z /\ number s.
Proof. exact int_literal_exists. Qed.
Print Assumptions C31_literals_exist.
Example C31_case :
  (exists v, parse (bs "-9223372036854775808") = Ok v /\ v_kind v = KNumber
             /\ int_literal (v_json v) (- 2 ^ 63) /\ v_i64 v = Ok (- 2 ^ 63)%Z)
  /\ (exists v, parse (bs """18446744073709551615""") = Ok v /\ shows v (CStr (bs "18446744073709551615"))
             /\ v_u64 v = Ok (2 ^ 64 - 1)%Z).
Proof.
  split.
  - eexists. split; [vm_compute; reflexivity|]. split; [vm_compute; reflexivity|].
    split; [|vm_compute; reflexivity].
    apply (il_neg (bs "9223372036854775808")). split; [discriminate | apply digitsb_digits; vm_compute; reflexivity].
  - eexists. split; [vm_compute; reflexivity|]. split; [split; vm_compute; reflexivity | vm_compute; reflexivity].
Qed.

(** C32 is false for i32: 2147483648 becomes the most negative number. *)
Theorem C32_i32_refuted : exists v x,
  v_i64 v = Ok x /\ v_i32 v <> Ok (clamp (-2147483648) 2147483647 x).
Proof. exact i32_not_saturating. Qed.
Print Assumptions C32_i32_refuted.

(** What i32 does on every value: right up to 2147483647, wrong above. *)
Theorem C32_i32_exact_partial : forall v x, v_i64 v = Ok x ->
  v_i32 v = Ok (if (2147483647 <? x)%Z then -2147483648 else clamp (-2147483648) 2147483647 x)%Z.
Proof. exact i32_exact. Qed.
Print Assumptions C32_i32_exact_partial.

(** The other five saturate. *)
Theorem C32_signed : forall v x, v_i64 v = Ok x ->
  v_i16 v = Ok (clamp (-32768) 32767 x) /\ v_i8 v = Ok (clamp (-128) 127 x).
Proof. exact narrow_saturate. Qed.
Print Assumptions C32_signed.

Theorem C32_unsigned : forall v x, v_u64 v = Ok x ->
  v_u32 v = Ok (clamp 0 4294967295 x) /\ v_u16 v = Ok (clamp 0 65535 x) /\ v_u8 v = Ok (clamp 0 255 x).
Proof. exact narrow_saturate_u. Qed.
Print Assumptions C32_unsigned.
Example C32_case : exists v, parse (bs "-40000") = Ok v /\ v_i64 v = Ok (-40000)%Z
  /\ v_i16 v = Ok (-32768)%Z /\ v_i8 v = Ok (-128)%Z /\ v_i32 v = Ok (-40000)%Z.
Proof. eexists. repeat split; vm_compute; reflexivity. Qed.

(** C33 is false for strings written with escapes: a string whose text is "t" is
    not true when the t is written as a backslash-u escape. *)
Theorem C33_bool_refuted : exists v b s,
  chars b /\ shows v (CStr b) /\ v_str v = Ok s /\ In s true_words /\ v_bool v = Ok false.
Proof. exact bool_escaped. Qed.
Print Assumptions C33_bool_refuted.

(** For strings bool() goes by the raw text between the quotes [b], exactly: *)
Theorem C33_string_partial : forall v b, shows v (CStr b) ->
  exists x, v_i64 v = Ok x
  /\ (v_bool v = Ok true <-> In b true_words \/ x <> 0%Z)
  /\ (v_bool v = Ok false <-> ~ In b true_words /\ x = 0%Z).
Proof. exact bool_string. Qed.
Print Assumptions C33_string_partial.

(** Numbers: true exactly when the integer value is not zero. *)
Theorem C33_number : forall v n x, number n -> shows v (CNum n) -> v_i64 v = Ok x ->
  v_bool v = Ok (negb (x =? 0)%Z).
Proof. exact bool_number. Qed.
Print Assumptions C33_number.

Theorem C33_other : forall v c, shows v c -> wf c ->
  match c with
  | CNull | CFalse | CArr _ _ | CObj _ _ => v_bool v = Ok false
  | CTrue => v_bool v = Ok true
  | CNum _ | CStr _ => True
  end.
Proof. exact bool_other. Qed.
Print Assumptions C33_other.
Example C33_case :
  (exists v, parse (bs """TRUE""") = Ok v /\ shows v (CStr (bs "TRUE")) /\ v_bool v = Ok true)
  /\ (exists v, parse (bs "-2.5") = Ok v /\ shows v (CNum (bs "-2.5")) /\ v_i64 v = Ok (-2)%Z /\ v_bool v = Ok true).
Proof.
  split; eexists; (split; [vm_compute; reflexivity|]); (split; [split; vm_compute; reflexivity|]);
    repeat split; vm_compute; reflexivity.
Qed.

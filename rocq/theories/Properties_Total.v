(** Properties C08, C09, C34: nothing panics, and values are ordered. *)
From Coq Require Import String List Reals.
From Coq.Floats Require Import SpecFloat.
From Verif Require Import M_Base M_Util M_Num M_Value M_Valid M_Get S_Json S_Get S_Query S_Num S_Api S_Conv S_Panic P_Total P_Reach P_Order.

(** C08.  [get] terminates on every input and never reads out of bounds through
    [get_unchecked]: the only possible failure is a panic. *)
Theorem C08_get_terminates : forall json path,
  (exists v, get json path = Ok v) \/ get json path = Err EPanic.
Proof. exact get_no_hang. Qed.
Print Assumptions C08_get_terminates.

(** "Bad json will not panic" is false: a query that applies a modifier to the elements
    and compares with [~] panics. *)
Theorem C08_get_refuted : exists json path, get json path = Err EPanic.
Proof. exists (bs "[5]"), (bs "#(@pretty:{""prefix"":""\""""}=~true)"). vm_compute. reflexivity. Qed.
Print Assumptions C08_get_refuted.

(** It is true of all json unless the path has, in this order, [#(], [@pretty:], a
    double quote spelled with a backslash (or a backslash and [u], which can spell one),
    and a tilde or the escape that can stand for one.  Missing from the full
    claim: the paths that have all of these, where it is false in general. *)
Theorem C08_get_partial : forall json path, ~ tilde_after_pretty path -> exists v, get json path = Ok v.
Proof. exact get_total. Qed.
Print Assumptions C08_get_partial.
Theorem C08_value_get_partial : forall v path, ~ tilde_after_pretty path -> exists w, v_get v path = Ok w.
Proof. exact vget_returns. Qed.
Print Assumptions C08_value_get_partial.

(** The bound is close: a path with all of them panics, see C08_get_refuted.
    A malformed document and a path with a query, a wildcard, a multipath and a
    modifier with an argument. *)
Example C08_case : exists v,
  get (bs "{""a"":[1,{""b"":""x\") (bs "a.#(b%""*"")#|@pretty:{""prefix"":"" ""}|{0,""k"":1.b?,#(@this=~true)}") = Ok v.
Proof. apply C08_get_partial, safe_calm, safe_no_escape. vm_compute. intuition discriminate. Qed.
(** A query, [@pretty] with a spelled quote, no tilde; and one with other escapes and a
    tilde. *)
Example C08_case_escape : exists v, get (bs "[{""b"":5")
  (bs "#(@pretty:{""prefix"":""\""""}>""\t"")#|@pretty:{""indent"":""\""}") = Ok v.
Proof. apply C08_get_partial, calm_plain; vm_compute; reflexivity. Qed.
Example C08_case_tab : exists v, get (bs "[{""b"":5},""x") (bs "#(@pretty:{""prefix"":""\t""}=~true)#") = Ok v.
Proof. apply C08_get_partial, calm_unspelled; vm_compute; reflexivity. Qed.

(** C09.  False for values that do not exist although their kind is String. *)
Theorem C09_str_refuted : exists json v, parse json = Ok v /\ v_str v = Err EPanic /\ v_i64 v = Err EPanic.
Proof. exists (bs """abc"). eexists. split; [vm_compute; reflexivity|]. split; vm_compute; reflexivity. Qed.
Print Assumptions C09_str_refuted.

(** Every accessor returns on every value obtained from the crate that exists(), and on
    those that do not exist unless their kind is String.  [each] returns if its callback
    does and [array] always returns, whatever the value. *)
Theorem C09_accessors_partial : forall v, returned v -> v_exists v = true \/ v_kind v <> KString -> accessors_return v.
Proof. exact returned_accessors. Qed.
Print Assumptions C09_accessors_partial.
(** These are exactly the values whose accessors all return. *)
Theorem C09_accessors_exact : forall v, returned v -> (accessors_return v <-> v_exists v = true \/ v_kind v <> KString).
Proof. exact returned_exact. Qed.
Print Assumptions C09_accessors_exact.
(** No accessor panics, whether the value exists or not, on the result of [get] on a valid
    document, on the result of [get] on any text with a path without [@] (64), on the
    result of [parse] on a valid document and on the result of the method [get] on any value
    obtained from the crate.  The paths with a double quote spelled with a backslash, or a
    backslash and [u], somewhere behind [@pretty:] are left out. *)
Theorem C09_get_partial : forall json path v, get json path = Ok v -> ~ escape_in_pretty path ->
  valid json = Ok true \/ ~ In 64%N path -> accessors_return v.
Proof. exact get_accessors. Qed.
Print Assumptions C09_get_partial.
Theorem C09_parse : forall json v, valid json = Ok true -> parse json = Ok v -> accessors_return v.
Proof. exact parse_accessors. Qed.
Print Assumptions C09_parse.
Theorem C09_value_get_partial : forall u path v, returned u -> v_get u path = Ok v -> ~ escape_in_pretty path -> accessors_return v.
Proof. exact vget_accessors. Qed.
Print Assumptions C09_value_get_partial.
Theorem C09_each : forall S v (step : S -> value -> value -> R (S * bool)) st,
  (forall st k x, exists r, step st k x = Ok r) -> exists st', v_each v step st = Ok st'.
Proof. exact @each_returns. Qed.
Print Assumptions C09_each.
Theorem C09_array : forall v, exists l, v_array v = Ok l.
Proof. exact array_returns. Qed.
Print Assumptions C09_array.

(** A string cut short inside an escape, reached through a path. *)
Example C09_case : exists v,
  get (bs "{""a"":[""x\n"", 7") (bs "a.0") = Ok v /\ v_exists v = true /\ v_kind v = KString /\ accessors_return v.
Proof.
  eexists. split; [vm_compute; reflexivity|]. split; [vm_compute; reflexivity|]. split; [vm_compute; reflexivity|].
  eapply C09_accessors_partial; [|left; vm_compute; reflexivity].
  apply (ret_get (bs "{""a"":[""x\n"", 7") (bs "a.0")). vm_compute. reflexivity.
Qed.

(** A missing member, a modifier on a string inside a document cut short, and on a
    valid document. *)
Example C09_get_case : exists v,
  get (bs "{""a"":""x") (bs "a.b") = Ok v /\ v_exists v = false /\ accessors_return v.
Proof.
  eexists. split; [vm_compute; reflexivity|]. split; [vm_compute; reflexivity|].
  eapply (C09_get_partial (bs "{""a"":""x") (bs "a.b")); [vm_compute; reflexivity | apply safe_no_escape | right]; vm_compute; intuition discriminate.
Qed.
Example C09_value_get_case : exists u v,
  parse (bs "[""x"",""y") = Ok u /\ v_get u (bs "1|@this") = Ok v /\ accessors_return v.
Proof.
  do 2 eexists. split; [vm_compute; reflexivity|]. split; [vm_compute; reflexivity|].
  eapply (C09_value_get_partial _ (bs "1|@this")).
  - apply (ret_parse (bs "[""x"",""y")). vm_compute. reflexivity.
  - vm_compute. reflexivity.
  - apply safe_no_escape. vm_compute. intuition discriminate.
Qed.
Example C09_parse_case : exists v, parse (bs " ""aA"" ") = Ok v /\ v_kind v = KString /\ accessors_return v.
Proof.
  eexists. split; [vm_compute; reflexivity|]. split; [vm_compute; reflexivity|].
  eapply (C09_parse (bs " ""aA"" ")); vm_compute; reflexivity.
Qed.

(** C34.  On values other than non-existing ones of kind String: [cmp] returns,
    reversing the arguments reverses the result (so it is total), and [==] is [cmp] giving
    Equal. *)
Theorem C34_total_partial : forall a b, returned a -> returned b ->
  v_exists a = true \/ v_kind a <> KString -> v_exists b = true \/ v_kind b <> KString ->
  exists c, v_cmp a b = Ok c /\ v_cmp b a = Ok (CompOpp c)
    /\ v_eq a b = Ok (match c with Eq => true | _ => false end).
Proof. exact returned_total. Qed.
Print Assumptions C34_total_partial.
(** The comparison of two values returns unless both have the kind String and one of them
    does not exist, and panics if it is so. *)
Theorem C34_total_exact : forall a b, returned a -> returned b ->
  ((exists c, v_cmp a b = Ok c) <-> v_kind a <> KString \/ v_kind b <> KString \/ v_exists a = true /\ v_exists b = true).
Proof. exact cmp_exact. Qed.
Print Assumptions C34_total_exact.
Theorem C34_reflexive_partial : forall a, returned a ->
  v_exists a = true \/ v_kind a <> KString -> v_cmp a a = Ok Eq.
Proof. exact returned_refl. Qed.
Print Assumptions C34_reflexive_partial.
(** Transitivity in all its forms: < then <, < then =, = then <, = then =, ... *)
Theorem C34_transitive_partial : forall a b c x y z, returned a -> returned b -> returned c ->
  v_exists a = true \/ v_kind a <> KString -> v_exists b = true \/ v_kind b <> KString ->
  v_exists c = true \/ v_kind c <> KString ->
  v_cmp a b = Ok x -> v_cmp b c = Ok y -> then_cmp x y = Some z -> v_cmp a c = Ok z.
Proof. exact returned_trans. Qed.
Print Assumptions C34_transitive_partial.
(** Which order it is.  Different kinds: Null, False, Number, String, True, Array,
    Object, in this order (also of the kinds themselves). *)
Theorem C34_kinds : forall a b, v_kind a <> v_kind b ->
  exists c, v_cmp a b = Ok c /\ cmp_by kind_lt (v_kind a) (v_kind b) c.
Proof. exact cmp_kinds. Qed.
Print Assumptions C34_kinds.
Theorem C34_kind_order : forall a b, cmp_by kind_lt a b (kind_cmp a b).
Proof. exact kind_order. Qed.
Print Assumptions C34_kind_order.
(** Strings: bytewise order of str(). *)
Theorem C34_strings : forall a b s t, v_kind a = KString -> v_kind b = KString -> v_str a = Ok s -> v_str b = Ok t ->
  exists c, v_cmp a b = Ok c /\ cmp_by text_lt s t c.
Proof. exact cmp_strings. Qed.
Print Assumptions C34_strings.
(** Numbers: order of the nearest binary64 values. *)
Theorem C34_numbers : forall a b m e m' e', v_kind a = KNumber -> v_kind b = KNumber ->
  denotes (v_json a) m e -> denotes (v_json b) m' e' ->
  exists c, v_cmp a b = Ok c /\ cmp_by Rlt (f64_val (num_val m e)) (f64_val (num_val m' e')) c.
Proof. exact cmp_numbers. Qed.
Print Assumptions C34_numbers.
(** Other values of the same kind: bytewise order of json(). *)
Theorem C34_others : forall a b, v_kind a = v_kind b -> v_kind a <> KString -> v_kind a <> KNumber ->
  exists c, v_cmp a b = Ok c /\ cmp_by text_lt (v_json a) (v_json b) c.
Proof. exact cmp_others. Qed.
Print Assumptions C34_others.
(** Values that do not exist: the comparison of two unterminated strings panics. *)
Theorem C34_refuted : exists json v, parse json = Ok v /\ v_cmp v v = Err EPanic.
Proof. exists (bs """abc"). eexists. split; [vm_compute; reflexivity|]. vm_compute. reflexivity. Qed.
Print Assumptions C34_refuted.

(** [-0], [0.5e0] and [12] in that order; a malformed number counts as 0. *)
Definition cmp_at (json i j : bytes) : R comparison := a <- get json i ;; b <- get json j ;; v_cmp a b.
Definition nums : bytes := bs "[-0, 0.5e0, 12, 1e]".
Example C34_case :
  cmp_at nums (bs "0") (bs "1") = Ok Lt /\ cmp_at nums (bs "1") (bs "2") = Ok Lt /\
  cmp_at nums (bs "0") (bs "2") = Ok Lt /\ cmp_at nums (bs "0") (bs "3") = Ok Eq.
Proof. vm_compute. auto. Qed.
(** The escaped string is the greater one although its raw text is the smaller one. *)
Definition strs : bytes := bs "[""A"", ""\u0042"", null, false, true, [1], {}]".
Example C34_order_case :
  cmp_at strs (bs "0") (bs "1") = Ok Lt /\ cmp_at strs (bs "2") (bs "3") = Ok Lt /\ cmp_at strs (bs "3") (bs "0") = Ok Lt /\
  cmp_at strs (bs "1") (bs "4") = Ok Lt /\ cmp_at strs (bs "4") (bs "5") = Ok Lt /\ cmp_at strs (bs "5") (bs "6") = Ok Lt.
Proof. vm_compute. repeat split. Qed.

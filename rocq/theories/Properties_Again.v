(** The text of a result is all there is to it. *)
From Coq Require Import String List NArith ZArith.
From Verif Require Import M_Base M_Util M_Num M_Value M_Valid M_Get S_Json S_Api S_Same P_Again.
Import ListNotations.
Open Scope list_scope.

(** C64: every value that the crate hands out, parsed or found in any text (valid or
    not) by any path, gives the answers that [parse] of its own text gives. *)
Theorem C64_parse_again : forall v, returned v -> v_exists v = true ->
  exists x, parse (v_json v) = Ok x /\ same_answers v x.
Proof. exact parse_again. Qed.
Print Assumptions C64_parse_again.

(** Looking up a path in it ends like looking it up in its text. *)
Theorem C64_get_text : forall v p, returned v -> same_outcome (v_get v p) (get (v_json v) p).
Proof. exact vget_text. Qed.
Print Assumptions C64_get_text.

(** Two values with the same text cannot be told apart, wherever they come from. *)
Theorem C64_text_decides : forall a b, returned a -> returned b -> v_exists a = true -> v_json a = v_json b ->
  same_answers a b /\ forall p, same_outcome (v_get a p) (v_get b p).
Proof. exact text_decides. Qed.
Print Assumptions C64_text_decides.

(** A member with an escaped name and value of a broken document, and the same string
    built by a multipath and by a modifier. *)
Definition C64_doc := bs "{""k\n"" : ""x\ty"" ,,".
Example C64_case : exists a b x,
  valid C64_doc = Ok false /\ get C64_doc (bs "k*") = Ok a /\ get C64_doc (bs "@this|[k*]|0") = Ok b /\
  returned a /\ returned b /\ v_exists a = true /\ v_json a = v_json b /\ v_json a = bs """x\ty""" /\
  parse (bs """x\ty""") = Ok x /\ v_str x = Ok (bs "x" ++ 9%N :: bs "y").
Proof.
  eexists. eexists. eexists. split; [vm_compute; reflexivity|]. split; [vm_compute; reflexivity|]. split; [vm_compute; reflexivity|].
  split; [apply (ret_get C64_doc (bs "k*")); vm_compute; reflexivity|].
  split; [apply (ret_get C64_doc (bs "@this|[k*]|0")); vm_compute; reflexivity|].
  repeat (split; [vm_compute; reflexivity|]). vm_compute; reflexivity.
Qed.

(** A value that does not exist may still have a kind ([parse] of a string that is not
    closed says [String], but has no text), hence the condition. *)
Theorem C64_missing_refuted : exists v, returned v /\ v_exists v = false /\
  forall x, parse (v_json v) = Ok x -> v_kind x <> v_kind v.
Proof. exact missing_kind. Qed.
Print Assumptions C64_missing_refuted.

(** C33 for every number, well-formed or not: bool() says whether i64() is not zero.
    (What i64() is: C51.) *)
Theorem C33_number_any : forall v x, returned v -> v_exists v = true -> v_kind v = KNumber -> v_i64 v = Ok x ->
  v_bool v = Ok (negb (x =? 0)%Z).
Proof. exact bool_number_any. Qed.
Print Assumptions C33_number_any.
Example C33_number_any_case : exists v, parse (bs "01") = Ok v /\ returned v /\ v_exists v = true /\ v_kind v = KNumber /\
  v_i64 v = Ok 1%Z /\ v_bool v = Ok true.
Proof.
  eexists. split; [vm_compute; reflexivity|]. split; [apply (ret_parse (bs "01")); vm_compute; reflexivity|].
  repeat (split; [vm_compute; reflexivity|]). vm_compute; reflexivity.
Qed.

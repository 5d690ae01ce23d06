(** Lookups through [parse], and JSON lines. *)
From Coq Require Import String List NArith.
From Verif Require Import M_Base M_Util M_Num M_Value M_Valid M_Get S_Json S_Api S_Same P_Wf P_Lines.
Import ListNotations.
Open Scope list_scope.

(** C25: for every valid document and every path, looking the path up in the parsed
    value ends like looking it up in the document. *)
Theorem C25_parse_get : forall json p, valid json = Ok true ->
  exists u, parse json = Ok u /\ same_outcome (v_get u p) (get json p).
Proof. exact parse_get_same. Qed.
Print Assumptions C25_parse_get.

Example C25_case :
  valid (bs "  {""a"":[1,{""b"":""x""}]} ") = Ok true /\
  exists u v, parse (bs "  {""a"":[1,{""b"":""x""}]} ") = Ok u /\ v_get u (bs "a.#(b=x)|@this.b") = Ok v /\ v_json v = bs """x""".
Proof.
  split; [vm_compute; reflexivity|]. eexists. eexists. split; [vm_compute; reflexivity|]. split; vm_compute; reflexivity.
Qed.

(** C26: a document of JSON lines, looked up with the prefix [..], answers like an array
    of the same values, for every array path. *)
Theorem C26_lines : forall ls w1 w es w2 p, Forall wf_item ls -> spaced ls ->
  ws w1 -> wf (CArr w es) -> ws w2 -> map i_val es = map i_val ls -> array_path p ->
  same_outcome (get (lines_text ls) (bs ".." ++ p)) (get (w1 ++ render (CArr w es) ++ w2) p).
Proof. exact lines_same. Qed.
Print Assumptions C26_lines.

Definition C26_values : list (item cst) :=
  [Item [] (CArr [] [Item [] (CNum (bs "1")) []; Item [] (CStr (bs "x")) []]) [10%N]; Item [] CTrue [10%N; 10%N]; Item [] (CNum (bs "2")) []].
Example C26_case :
  Forall wf_item C26_values /\ spaced C26_values /\ wf (CArr [] C26_values) /\ array_path (bs "#") /\
  lines_text C26_values = bs "[1,""x""]" ++ 10%N :: bs "true" ++ 10%N :: 10%N :: bs "2" /\
  exists v, get (lines_text C26_values) (bs "..#") = Ok v /\ v_json v = bs "3".
Proof.
  assert (H : wf (CArr [] C26_values)) by (apply wfb_wf; vm_compute; reflexivity).
  split; [inversion H; assumption|]. split; [cbn; intuition discriminate|]. split; [exact H|].
  split; [cbn; intuition discriminate|]. split; [reflexivity|]. eexists. split; vm_compute; reflexivity.
Qed.

(** Properties C38 and C39: the exact text of [@flatten] and of [@join] with [preserve] on
    every array, and exactly when it is JSON. *)
From Coq Require Import String List.
From Verif Require Import M_Base M_Util M_Value M_Valid M_Get S_Json S_Get S_Path S_Taken S_Mod S_ModText
  P_Wf P_ModFlat P_ModJoin P_ModText.
Import ListNotations.
Open Scope list_scope.

(** C38: the pieces joined by commas between brackets. *)
Theorem C38_text : forall w1 w es w2 arg dv, ws w1 -> wf (CArr w es) -> ws w2 -> arg_ok arg ->
  get (arg_text arg) (bs "deep") = Ok dv -> v_bool dv = Ok false ->
  exists v, get (w1 ++ render (CArr w es) ++ w2) (modifier (bs "flatten") arg) = Ok v /\
    v_kind v = KArray /\ v_json v = bs "[" ++ commas (flat_texts es) ++ bs "]".
Proof. exact get_flatten_text. Qed.
Print Assumptions C38_text.
(** It is JSON if and only if no child is an array of only whitespace, or all children but
    one are [[]]. *)
Theorem C38_valid_iff : forall w1 w es w2 arg dv v, ws w1 -> wf (CArr w es) -> ws w2 -> arg_ok arg ->
  get (arg_text arg) (bs "deep") = Ok dv -> v_bool dv = Ok false ->
  get (w1 ++ render (CArr w es) ++ w2) (modifier (bs "flatten") arg) = Ok v ->
  (valid (v_json v) = Ok true <->
   Forall (fun e => ~ hollow_array (i_val e)) es \/
   exists a e b, es = a ++ e :: b /\ Forall (fun x => i_val x = CArr [] []) (a ++ b)).
Proof.
  intros w1 w es w2 arg dv v H1 H2 H3 H4 H5 H6 H7.
  destruct (C38_text w1 w es w2 arg dv H1 H2 H3 H4 H5 H6) as (v' & E & _ & Ej).
  assert (v = v') by congruence. subst v'. rewrite Ej. exact (flat_valid w es H2).
Qed.
Print Assumptions C38_valid_iff.
Example C38_text_case : exists v, get (bs "[[ ],[ 1,2 ], [],3,[	]]") (bs "@flatten") = Ok v /\ v_json v = bs "[ , 1,2 ,3,	]" /\
  valid (v_json v) = Ok false.
Proof. eexists. split; [vm_compute; reflexivity|]. split; vm_compute; reflexivity. Qed.
Example C38_one_case : exists v, get (bs "[[],[ ],[]]") (bs "@flatten") = Ok v /\ v_json v = bs "[ ]" /\ valid (v_json v) = Ok true.
Proof. eexists. split; [vm_compute; reflexivity|]. split; vm_compute; reflexivity. Qed.
(** The two sides of the equivalence for these documents. *)
Example C38_hollow_case :
  let es := [Item [] (CArr (bs " ") []) []; Item [] (CNum (bs "1")) []] in
  render (CArr [] es) = bs "[[ ],1]" /\ wf (CArr [] es) /\ ~ Forall (fun e => ~ hollow_array (i_val e)) es /\
  ~ (exists a e b, es = a ++ e :: b /\ Forall (fun x => i_val x = CArr [] []) (a ++ b)).
Proof.
  cbv zeta. split; [reflexivity|]. split; [apply wfb_wf; vm_compute; reflexivity|]. split.
  - intros H. inversion H as [|? ? H1 _]; subst. apply H1. exists (bs " "). split; [discriminate | reflexivity].
  - intros (a & e & b & E & H). destruct a as [|x a].
    + injection E as _ <-. inversion H as [|? ? Hx _]; subst. discriminate.
    + injection E as <- E. inversion H as [|? ? Hx _]; subst. discriminate.
Qed.

(** C39: the inner texts of the objects joined by commas between braces. *)
Theorem C39_preserve_text : forall w1 w es w2 arg dv, ws w1 -> wf (CArr w es) -> ws w2 -> arg_ok arg ->
  get (arg_text arg) (bs "preserve") = Ok dv -> v_bool dv = Ok true ->
  exists v, get (w1 ++ render (CArr w es) ++ w2) (modifier (bs "join") arg) = Ok v /\
    v_kind v = KObject /\ v_json v = bs "{" ++ commas (join_texts es) ++ bs "}".
Proof. exact get_join_text. Qed.
Print Assumptions C39_preserve_text.
(** It is JSON if and only if no element is an empty object, or at most one element is an
    object. *)
Theorem C39_preserve_valid_iff : forall w1 w es w2 arg dv v, ws w1 -> wf (CArr w es) -> ws w2 -> arg_ok arg ->
  get (arg_text arg) (bs "preserve") = Ok dv -> v_bool dv = Ok true ->
  get (w1 ++ render (CArr w es) ++ w2) (modifier (bs "join") arg) = Ok v ->
  (valid (v_json v) = Ok true <->
   Forall (fun e => ~ empty_object (i_val e)) es \/
   exists a e b, es = a ++ e :: b /\ Forall (fun x => match i_val x with CObj _ _ => False | _ => True end) (a ++ b)).
Proof.
  intros w1 w es w2 arg dv v H1 H2 H3 H4 H5 H6 H7.
  destruct (C39_preserve_text w1 w es w2 arg dv H1 H2 H3 H4 H5 H6) as (v' & E & _ & Ej).
  assert (v = v') by congruence. subst v'. rewrite Ej.
  assert (Hi : forall l, Forall (fun x : item cst => match i_val x with CObj _ _ => False | _ => True end) l <-> Forall (fun x => is_obj (i_val x) = false) l).
  { intros l. rewrite !Forall_forall. split; intros H x Hx; specialize (H x Hx); destruct (i_val x); auto; try discriminate; contradiction. }
  rewrite (join_valid w es H2). split; (intros [H|(a & e & b & Es & H)]; [left; exact H | right; exists a, e, b; split; [exact Es | apply Hi, H]]).
Qed.
Print Assumptions C39_preserve_valid_iff.
Example C39_text_case : exists v, get (bs "[{}, {""a"": 1 },7,{ },{ ""b"":2}]") (bs "@join:{""preserve"":true}") = Ok v /\
  v_json v = bs "{,""a"": 1 , , ""b"":2}" /\ valid (v_json v) = Ok false.
Proof. eexists. split; [vm_compute; reflexivity|]. split; vm_compute; reflexivity. Qed.
Example C39_one_case : exists v, get (bs "[1,{ },2]") (bs "@join:{""preserve"":true}") = Ok v /\
  v_json v = bs "{ }" /\ valid (v_json v) = Ok true.
Proof. eexists. split; [vm_compute; reflexivity|]. split; vm_compute; reflexivity. Qed.

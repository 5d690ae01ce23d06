(** C88: lookups behind a modifier. *)
From Coq Require Import String List NArith ZArith.
From Verif Require Import M_Base M_Value M_Valid M_Get S_Json S_Num S_Path S_Get S_Query S_Api S_Panic S_Taken S_Same S_Mod S_Eval S_Filter P_Eval P_Total P_GetMod P_Turn.
Import ListNotations.
Open Scope list_scope.

(** Behind [@reverse] the elements are counted from the end. *)
Theorem C88_index : forall s u l k k' n n', valid s = Ok true -> taken s u -> v_kind u = KArray -> v_array u = Ok l ->
  digits1 k -> digits_val k = Z.of_nat n -> digits1 k' -> digits_val k' = Z.of_nat n' ->
  n + n' + 1 = length l -> (Z.of_nat (length l) < 2 ^ 63)%Z ->
  same_find (v_get u (bs "@reverse|" ++ k)) (v_get u k').
Proof. exact turn_index. Qed.
Print Assumptions C88_index.
Theorem C88_count : forall s u, valid s = Ok true -> taken s u -> v_kind u = KArray ->
  same_find (v_get u (bs "@reverse|#")) (v_get u (bs "#")).
Proof. exact turn_count. Qed.
Print Assumptions C88_count.

(** Collecting and filtering can change places with [@reverse]. *)
Theorem C88_each : forall matches index holds ss s u, meaning matches index holds ss -> steps_ok ss -> ss <> [] ->
  valid s = Ok true -> taken s u -> v_kind u = KArray ->
  same_find (v_get u (bs "@reverse|#." ++ dotted (map step_text ss))) (v_get u (bs "#." ++ dotted (map step_text ss) ++ bs "|@reverse")).
Proof. exact turn_each. Qed.
Print Assumptions C88_each.
Theorem C88_filter : forall s u q, valid s = Ok true -> taken s u -> v_kind u = KArray -> balanced q -> ~ tilde_after_pretty (qcomp q false) ->
  same_find (v_get u (bs "@reverse|" ++ qcomp q true)) (v_get u (qcomp q true ++ bs "|@reverse")).
Proof. exact turn_filter. Qed.
Print Assumptions C88_filter.

(** The first match behind [@reverse] is the last one. *)
Theorem C88_last : forall s u q, valid s = Ok true -> taken s u -> v_kind u = KArray -> balanced q -> ~ tilde_after_pretty (qcomp q false) ->
  same_find (v_get u (bs "@reverse|" ++ qcomp q false)) (v_get u (qcomp q true ++ bs "|@reverse|0")).
Proof. exact turn_last. Qed.
Print Assumptions C88_last.

(** In an object a name behind [@reverse] finds the last member of that name.  ([l] is what
    each() visits, in order.) *)
Theorem C88_member : forall s u l a k x b n, valid s = Ok true -> taken s u -> v_kind u = KObject -> v_each u record_args [] = Ok (rev l) ->
  l = a ++ (k, x) :: b -> v_str k = Ok n -> ~ In 0x3F%N n -> (forall k' x', In (k', x') b -> v_str k' <> Ok n) ->
  exists y, v_get u (bs "@reverse|" ++ path_escape n) = Ok y /\ same_answers y x.
Proof. exact turn_member. Qed.
Print Assumptions C88_member.

(** [@ugly] in front of a path is [@ugly] behind it. *)
Theorem C88_ugly : forall matches index holds ss s u, meaning matches index holds ss -> steps_ok ss -> ss <> [] ->
  tame (dotted (map step_text ss)) -> valid s = Ok true -> taken s u -> v_exists u = true ->
  same_find (v_get u (bs "@ugly|" ++ dotted (map step_text ss))) (v_get u (dotted (map step_text ss) ++ bs "|@ugly")).
Proof. exact ugly_through. Qed.
Print Assumptions C88_ugly.
(** Not so for [@pretty]: the indentation differs. *)
Theorem C88_pretty : exists s v w, valid s = Ok true /\ get s (bs "@pretty|a") = Ok v /\ get s (bs "a|@pretty") = Ok w /\ v_json v <> v_json w.
Proof.
  exists (bs "{""a"":[{""b"":1}]}"). do 2 eexists. split; [vm_compute; reflexivity|]. split; [vm_compute; reflexivity|]. split; [vm_compute; reflexivity|].
  vm_compute. discriminate.
Qed.
Print Assumptions C88_pretty.

Definition tdoc : list N := bs "{""a"": [ {""x"":1}, {""x"" : [ 2 ]} ,{""y"":3}, 4 ],""o"":{""k"":1,""m"":2, ""k"":3} }".
Lemma tdoc_ok : valid tdoc = Ok true.
Proof. vm_compute. reflexivity. Qed.
Lemma taken_name k v : ~ In 0x40%N k -> get tdoc k = Ok v -> taken tdoc v.
Proof. intros H E. eapply tk_get; [apply no_modifier_tame, H|exact E]. Qed.
Example C88_case_index : exists u v, get tdoc (bs "a") = Ok u /\ same_find (v_get u (bs "@reverse|1")) (v_get u (bs "2")) /\
  v_get u (bs "@reverse|1") = Ok v /\ v_json v = bs "{""y"":3}".
Proof.
  assert (E : exists u l v, get tdoc (bs "a") = Ok u /\ v_array u = Ok l /\ length l = 4 /\ v_kind u = KArray /\ v_get u (bs "@reverse|1") = Ok v /\ v_json v = bs "{""y"":3}").
  { do 3 eexists. split; [vm_compute; reflexivity|]. split; [vm_compute; reflexivity|]. split; [vm_compute; reflexivity|]. split; [vm_compute; reflexivity|]. split; vm_compute; reflexivity. }
  destruct E as (u & l & v & E & A & L & K & G & J). exists u, v. split; [exact E|]. split; [|split; assumption].
  apply (C88_index tdoc u l (bs "1") (bs "2") 1 2 tdoc_ok); try assumption; try reflexivity.
  - apply (taken_name (bs "a")); [vm_compute; intuition discriminate|exact E].
  - split; [discriminate|]. constructor; [split; discriminate|constructor].
  - split; [discriminate|]. constructor; [split; discriminate|constructor].
  - rewrite L. reflexivity.
  - rewrite L. reflexivity.
Qed.
Example C88_case_each : exists u v, get tdoc (bs "a") = Ok u /\ same_find (v_get u (bs "@reverse|#.x")) (v_get u (bs "#.x|@reverse")) /\
  v_get u (bs "@reverse|#.x") = Ok v /\ v_json v = bs "[[ 2 ],1]".
Proof.
  assert (E : exists u v, get tdoc (bs "a") = Ok u /\ v_kind u = KArray /\ v_get u (bs "@reverse|#.x") = Ok v /\ v_json v = bs "[[ 2 ],1]").
  { do 2 eexists. split; [vm_compute; reflexivity|]. split; [vm_compute; reflexivity|]. split; vm_compute; reflexivity. }
  destruct E as (u & v & E & K & G & J). exists u, v. split; [exact E|]. split; [|split; assumption].
  destruct (simple_steps [Name (bs "x")] ltac:(vm_compute; reflexivity)) as [Ho _].
  assert (Mn : meaning match0 index0 holds0 [Name (bs "x")]).
  { apply meaning0; [exact (proj1 Ho)|]. apply safe_calm, safe_no_escape. vm_compute. intuition discriminate. }
  apply (C88_each match0 index0 holds0 [Name (bs "x")] tdoc u Mn Ho ltac:(discriminate) tdoc_ok); [|exact K].
  apply (taken_name (bs "a")); [vm_compute; intuition discriminate|exact E].
Qed.
Example C88_case_member : exists u v, get tdoc (bs "o") = Ok u /\ v_get u (bs "@reverse|k") = Ok v /\ v_json v = bs "3".
Proof. do 2 eexists. split; [vm_compute; reflexivity|]. split; vm_compute; reflexivity. Qed.
Example C88_case_ugly : exists u v w, get tdoc (bs "a") = Ok u /\ v_get u (bs "@ugly|1.x") = Ok v /\ v_get u (bs "1.x|@ugly") = Ok w /\ v_json v = bs "[2]" /\ v_json w = bs "[2]".
Proof. do 3 eexists. split; [vm_compute; reflexivity|]. split; [vm_compute; reflexivity|]. split; [vm_compute; reflexivity|]. split; vm_compute; reflexivity. Qed.

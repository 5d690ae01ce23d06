(** C89: lookups behind [@flatten] and [@join]. *)
From Coq Require Import String List NArith ZArith.
From Verif Require Import M_Base M_Value M_Valid M_Get S_Json S_Num S_Path S_Get S_Query S_Api S_Panic S_Taken S_Same S_Mod S_Eval S_Filter S_Merge P_Eval P_Total P_GetMod P_Merge P_Deep.
Import ListNotations.
Open Scope list_scope.

(** The elements of what [@flatten] gives are the elements with the arrays among them
    opened. *)
Theorem C89_elements : forall s u l, valid s = Ok true -> taken s u -> v_kind u = KArray -> v_array u = Ok l ->
  exists v xs ys, v_get u (bs "@flatten") = Ok v /\ v_array v = Ok xs /\ S_Merge.opened l ys /\ Forall2 same_answers xs ys.
Proof. exact flat_elements. Qed.
Print Assumptions C89_elements.

(** Behind [@flatten] an index and the number of elements refer to them. *)
Theorem C89_index : forall s u l ys k n, valid s = Ok true -> taken s u -> v_kind u = KArray -> v_array u = Ok l -> S_Merge.opened l ys ->
  digits1 k -> digits_val k = Z.of_nat n -> (Z.of_nat n < 2 ^ 63)%Z ->
  match nth_error ys n with
  | Some y => exists v, v_get u (bs "@flatten|" ++ k) = Ok v /\ same_answers v y
  | None => exists v, v_get u (bs "@flatten|" ++ k) = Ok v /\ v_exists v = false
  end.
Proof. exact flat_index. Qed.
Print Assumptions C89_index.
Theorem C89_count : forall s u l ys, valid s = Ok true -> taken s u -> v_kind u = KArray -> v_array u = Ok l -> S_Merge.opened l ys ->
  exists v, v_get u (bs "@flatten|#") = Ok v /\ v_kind v = KNumber /\ int_literal (v_json v) (Z.of_nat (length ys)).
Proof. exact flat_count. Qed.
Print Assumptions C89_count.

(** With [deep], the same with the arrays inside the arrays opened as well. *)
Theorem C89_deep_elements : forall s u l, valid s = Ok true -> taken s u -> v_kind u = KArray -> v_array u = Ok l ->
  exists v xs ys, v_get u (bs "@flatten:{""deep"":true}") = Ok v /\ v_array v = Ok xs /\ leaves l ys /\ Forall2 same_answers xs ys.
Proof. exact deep_elements. Qed.
Print Assumptions C89_deep_elements.
Theorem C89_deep_index : forall s u l ys k n, valid s = Ok true -> taken s u -> v_kind u = KArray -> v_array u = Ok l -> leaves l ys ->
  digits1 k -> digits_val k = Z.of_nat n -> (Z.of_nat n < 2 ^ 63)%Z ->
  match nth_error ys n with
  | Some y => exists v, v_get u (bs "@flatten:{""deep"":true}|" ++ k) = Ok v /\ same_answers v y
  | None => exists v, v_get u (bs "@flatten:{""deep"":true}|" ++ k) = Ok v /\ v_exists v = false
  end.
Proof. exact deep_index. Qed.
Print Assumptions C89_deep_index.
Theorem C89_deep_count : forall s u l ys, valid s = Ok true -> taken s u -> v_kind u = KArray -> v_array u = Ok l -> leaves l ys ->
  exists v, v_get u (bs "@flatten:{""deep"":true}|#") = Ok v /\ v_kind v = KNumber /\ int_literal (v_json v) (Z.of_nat (length ys)).
Proof. exact deep_count. Qed.
Print Assumptions C89_deep_count.

(** In an array of arrays, collecting and filtering behind [@flatten] can be done in each of
    the arrays in front of it. *)
Theorem C89_each : forall matches index holds ss s u l, meaning matches index holds ss -> steps_ok ss -> ss <> [] ->
  valid s = Ok true -> taken s u -> v_kind u = KArray -> v_array u = Ok l -> Forall (fun x => v_kind x = KArray) l ->
  same_find (v_get u (bs "@flatten|#." ++ dotted (map step_text ss))) (v_get u ((bs "#.#." ++ dotted (map step_text ss)) ++ bs "|@flatten")).
Proof. exact flat_each. Qed.
Print Assumptions C89_each.
Theorem C89_filter : forall q s u l, balanced q -> ~ tilde_after_pretty (qcomp q false) ->
  valid s = Ok true -> taken s u -> v_kind u = KArray -> v_array u = Ok l -> Forall (fun x => v_kind x = KArray) l ->
  same_find (v_get u (bs "@flatten|" ++ qcomp q true)) (v_get u ((bs "#." ++ qcomp q true) ++ bs "|@flatten")).
Proof. exact flat_filter. Qed.
Print Assumptions C89_filter.
(** Not so with an element that is no array. *)
Theorem C89_mixed : exists s v w, valid s = Ok true /\ get s (bs "@flatten|#.x") = Ok v /\ get s (bs "#.#.x|@flatten") = Ok w /\ v_json v <> v_json w.
Proof.
  exists (bs "[[{""x"":1}],{""x"":2}]"). do 2 eexists. split; [vm_compute; reflexivity|]. split; [vm_compute; reflexivity|]. split; [vm_compute; reflexivity|].
  vm_compute. discriminate.
Qed.
Print Assumptions C89_mixed.

(** A name behind [@join] finds the last of the members of that name of all the objects in
    the array, and nothing when there is none. *)
Theorem C89_member : forall s u l kvs a k x b n, valid s = Ok true -> taken s u -> v_kind u = KArray -> v_array u = Ok l -> gathered l kvs ->
  kvs = a ++ (k, x) :: b -> v_str k = Ok n -> ~ In 0x3F%N n -> (forall k' x', In (k', x') b -> v_str k' <> Ok n) ->
  exists y, v_get u (bs "@join|" ++ path_escape n) = Ok y /\ same_answers y x.
Proof. exact join_member. Qed.
Print Assumptions C89_member.
Theorem C89_no_member : forall s u l kvs n, valid s = Ok true -> taken s u -> v_kind u = KArray -> v_array u = Ok l -> gathered l kvs ->
  ~ In 0x3F%N n -> (forall k x, In (k, x) kvs -> v_str k <> Ok n) ->
  exists y, v_get u (bs "@join|" ++ path_escape n) = Ok y /\ v_exists y = false.
Proof. exact join_none. Qed.
Print Assumptions C89_no_member.

Definition mdoc : list N := bs "{""a"": [ [ ], [1, {""x"":2}] ,3,[[4]]],""b"":[[{""x"":1}, {""x"" : [ 2 ]}],[ ],[{""y"":3},{""x"":5}]],""c"":[{""k"":1,""m"":2}, 7 ,{""k"" : [3], ""n"":4}] }".
Lemma mdoc_ok : valid mdoc = Ok true.
Proof. vm_compute. reflexivity. Qed.
Lemma mdoc_taken k v : ~ In 0x40%N k -> get mdoc k = Ok v -> taken mdoc v.
Proof. intros H E. eapply tk_get; [apply no_modifier_tame, H|exact E]. Qed.
(** An index behind [@flatten], by the theorem. *)
Example C89_case_index : exists u l ys y v, get mdoc (bs "a") = Ok u /\ v_array u = Ok l /\ S_Merge.opened l ys /\ nth_error ys 2 = Some y /\ v_json y = bs "3" /\
  v_get u (bs "@flatten|2") = Ok v /\ same_answers v y.
Proof.
  assert (E : exists u, get mdoc (bs "a") = Ok u /\ v_kind u = KArray) by (eexists; split; vm_compute; reflexivity). destruct E as (u & E & K).
  assert (Tu : taken mdoc u) by (apply (mdoc_taken (bs "a")); [vm_compute; intuition discriminate|exact E]).
  assert (A : exists l, v_array u = Ok l) by (vm_compute in E; injection E as <-; eexists; vm_compute; reflexivity). destruct A as (l & A).
  destruct (C89_elements mdoc u l mdoc_ok Tu K A) as (v & xs & ys & Ev & Ax & O & F).
  assert (N : exists x, nth_error xs 2 = Some x /\ v_json x = bs "3").
  { clear - E Ev Ax. vm_compute in E. injection E as <-. vm_compute in Ev. injection Ev as <-. vm_compute in Ax. injection Ax as <-. eexists. split; reflexivity. }
  destruct N as (x & Nx & Jx). destruct (F2_at _ _ _ F 2 x Nx) as (y & Ny & Sy).
  pose proof (C89_index mdoc u l ys (bs "2") 2 mdoc_ok Tu K A O) as I. rewrite Ny in I.
  destruct I as (z & Ez & Sz); [split; [discriminate|constructor; [split; discriminate|constructor]]|reflexivity|reflexivity|].
  exists u, l, ys, y, z. split; [exact E|]. split; [exact A|]. split; [exact O|]. split; [exact Ny|]. split; [rewrite <- (sa_json _ _ Sy); exact Jx|]. split; [exact Ez|exact Sz].
Qed.
Example C89_case_count : exists u v, get mdoc (bs "a") = Ok u /\ v_get u (bs "@flatten|#") = Ok v /\ v_json v = bs "4".
Proof. do 2 eexists. split; [vm_compute; reflexivity|]. split; vm_compute; reflexivity. Qed.
Example C89_case_each : exists u v, get mdoc (bs "b") = Ok u /\ same_find (v_get u (bs "@flatten|#.x")) (v_get u (bs "#.#.x|@flatten")) /\
  v_get u (bs "@flatten|#.x") = Ok v /\ v_json v = bs "[1,[ 2 ],5]".
Proof.
  assert (E : exists u l v, get mdoc (bs "b") = Ok u /\ v_array u = Ok l /\ Forall (fun x => v_kind x = KArray) l /\ v_kind u = KArray /\ v_get u (bs "@flatten|#.x") = Ok v /\ v_json v = bs "[1,[ 2 ],5]").
  { do 3 eexists. split; [vm_compute; reflexivity|]. split; [vm_compute; reflexivity|]. split; [repeat (constructor; [reflexivity|]); constructor|]. split; [vm_compute; reflexivity|]. split; vm_compute; reflexivity. }
  destruct E as (u & l & v & E & A & L & K & G & J). exists u, v. split; [exact E|]. split; [|split; assumption].
  destruct (simple_steps [Name (bs "x")] ltac:(vm_compute; reflexivity)) as [Ho _].
  assert (Mn : meaning match0 index0 holds0 [Name (bs "x")]).
  { apply meaning0; [exact (proj1 Ho)|]. apply safe_calm, safe_no_escape. vm_compute. intuition discriminate. }
  apply (C89_each match0 index0 holds0 [Name (bs "x")] mdoc u l Mn Ho ltac:(discriminate) mdoc_ok); [|exact K|exact A|exact L].
  apply (mdoc_taken (bs "b")); [vm_compute; intuition discriminate|exact E].
Qed.
(** A name behind [@join], computed, and the members seen for it. *)
Example C89_case_member : exists u v, get mdoc (bs "c") = Ok u /\ v_get u (bs "@join|k") = Ok v /\ v_json v = bs "[3]".
Proof. do 2 eexists. split; [vm_compute; reflexivity|]. split; vm_compute; reflexivity. Qed.
Definition members_seen (x : value) : list (value * value) := match v_each x record_args [] with Ok l => rev l | Err _ => [] end.
Example C89_case_gathered : exists u l p q r k x b, get mdoc (bs "c") = Ok u /\ v_kind u = KArray /\ v_array u = Ok l /\ l = [p; q; r] /\
  gathered l (members_seen p ++ (k, x) :: b) /\ v_str k = Ok (bs "k") /\ v_json x = bs "[3]" /\ (forall k' x', In (k', x') b -> v_str k' <> Ok (bs "k")).
Proof.
  assert (E : exists u p q r, get mdoc (bs "c") = Ok u /\ v_kind u = KArray /\ v_array u = Ok [p; q; r] /\ v_kind p = KObject /\ v_kind q = KNumber /\ v_kind r = KObject /\
    v_each p record_args [] = Ok (rev (members_seen p)) /\ exists k x b, v_each r record_args [] = Ok (rev ((k, x) :: b)) /\ v_str k = Ok (bs "k") /\ v_json x = bs "[3]" /\
    map (fun kv => v_str (fst kv)) b = [Ok (bs "n")]).
  { do 4 eexists. split; [vm_compute; reflexivity|]. split; [vm_compute; reflexivity|]. split; [vm_compute; reflexivity|]. do 4 (split; [vm_compute; reflexivity|]).
    eexists _, _, [_]. split; [vm_compute; reflexivity|]. split; [vm_compute; reflexivity|]. split; vm_compute; reflexivity. }
  destruct E as (u & p & q & r & E & K & A & Kp & Kq & Kr & Ep & k & x & b & Er & Sk & Jx & B). exists u, [p; q; r], p, q, r, k, x, b.
  do 4 (split; [first [exact E|exact K|exact A|reflexivity]|]). split.
  - apply (ga_object p _ [q; r] _ Kp Ep). apply ga_other; [congruence|]. rewrite <- (app_nil_r ((k, x) :: b)). apply (ga_object r _ [] _ Kr Er), ga_nil.
  - split; [exact Sk|]. split; [exact Jx|]. intros k' x' Hi. apply (in_map (fun kv => v_str (fst kv))) in Hi. rewrite B in Hi. destruct Hi as [Hi|[]]. cbn [fst] in Hi. rewrite <- Hi. discriminate.
Qed.
(** A leaf, by the theorem. *)
Example C89_case_deep : exists u l ys y v, get mdoc (bs "a") = Ok u /\ v_array u = Ok l /\ leaves l ys /\ nth_error ys 3 = Some y /\ v_json y = bs "4" /\
  v_get u (bs "@flatten:{""deep"":true}|3") = Ok v /\ same_answers v y.
Proof.
  assert (E : exists u, get mdoc (bs "a") = Ok u /\ v_kind u = KArray) by (eexists; split; vm_compute; reflexivity). destruct E as (u & E & K).
  assert (Tu : taken mdoc u) by (apply (mdoc_taken (bs "a")); [vm_compute; intuition discriminate|exact E]).
  assert (A : exists l, v_array u = Ok l) by (vm_compute in E; injection E as <-; eexists; vm_compute; reflexivity). destruct A as (l & A).
  destruct (C89_deep_elements mdoc u l mdoc_ok Tu K A) as (v & xs & ys & Ev & Ax & O & F).
  assert (N : exists x, nth_error xs 3 = Some x /\ v_json x = bs "4").
  { clear - E Ev Ax. vm_compute in E. injection E as <-. vm_compute in Ev. injection Ev as <-. vm_compute in Ax. injection Ax as <-. eexists. split; reflexivity. }
  destruct N as (x & Nx & Jx). destruct (F2_at _ _ _ F 3 x Nx) as (y & Ny & Sy).
  pose proof (C89_deep_index mdoc u l ys (bs "3") 3 mdoc_ok Tu K A O) as I. rewrite Ny in I.
  destruct I as (z & Ez & Sz); [split; [discriminate|constructor; [split; discriminate|constructor]]|reflexivity|reflexivity|].
  exists u, l, ys, y, z. split; [exact E|]. split; [exact A|]. split; [exact O|]. split; [exact Ny|]. split; [rewrite <- (sa_json _ _ Sy); exact Jx|]. split; [exact Ez|exact Sz].
Qed.

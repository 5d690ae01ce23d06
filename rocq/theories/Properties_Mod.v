(** Properties C35 to C39, C45 and C49: modifiers. *)
From Coq Require Import String List.
From Verif Require Import M_Base M_Util M_Value M_Valid M_Get M_Pretty S_Json S_Tree S_PrettyArg S_Get S_Path S_Query S_Follow S_Taken S_Mod S_Join
  P_Wf P_ModPretty P_Mod P_ModDoc P_ModFlat P_ModJoin.
Import ListNotations.
Open Scope list_scope.

(** C35: [@this] gives the document itself.  A container keeps the whitespace after it
    (as [parse] does), a scalar does not. *)
Theorem C35_this : forall w1 c w2 arg, ws w1 -> wf c -> ws w2 -> arg_ok arg ->
  exists v, get (w1 ++ render c ++ w2) (modifier (bs "this") arg) = Ok v /\ presents v c /\
    v_json v = (match c with CArr _ _ | CObj _ _ => render c ++ w2 | _ => render c end).
Proof.
  intros w1 c w2 arg H1 H2 H3 H4. destruct (get_this w1 c w2 arg H1 H2 H3 H4) as (v & E & P & J).
  exists v. split; [exact E|]. split; [exact P|]. rewrite J. destruct c; reflexivity.
Qed.
Print Assumptions C35_this.
(** After a pipe: [p|@this] is [p], for every path [p] of names, patterns, indexes,
    hashes and queries. *)
Theorem C35_pipe_this : forall json ks, valid json = Ok true -> ks <> [] -> Forall any_comp ks -> no_modifier (dotted ks) ->
  exists v x, get json (dotted ks) = Ok v /\ get json (dotted ks ++ bs "|" ++ modifier (bs "this") None) = Ok x /\ agree x v.
Proof. exact pipe_this. Qed.
Print Assumptions C35_pipe_this.

Example C35_case : exists v, get (bs "  [1, {""a"":2}]  ") (bs "@this") = Ok v /\ v_json v = bs "[1, {""a"":2}]  ".
Proof. eexists. split; [vm_compute; reflexivity|]. vm_compute. reflexivity. Qed.
Example C35_pipe_case : valid (bs "{""a"":[1, {""b"":2}]}") = Ok true /\ dotted [bs "a"; bs "1"] = bs "a.1" /\
  exists v, get (bs "{""a"":[1, {""b"":2}]}") (bs "a.1|@this") = Ok v /\ v_json v = bs "{""b"":2}".
Proof. split; [vm_compute; reflexivity|]. split; [reflexivity|]. eexists. split; [vm_compute; reflexivity|]. vm_compute. reflexivity. Qed.

(** C36: [@valid] exists exactly when the document is valid; if so it gives the same as
    [@this]. *)
Theorem C36_valid : forall json arg, arg_ok arg ->
  exists v, get json (modifier (bs "valid") arg) = Ok v /\
    (v_exists v = true <-> valid json = Ok true) /\
    (v_exists v = true -> exists x, get json (modifier (bs "this") None) = Ok x /\
       v_json v = v_json x /\ v_kind v = v_kind x /\ v_str v = v_str x) /\
    (v_exists v = false -> absent v).
Proof.
  intros json arg H. destruct (get_valid_mod json arg H) as (v & E & H1 & H2 & H3). exists v. split; [exact E|]. split; [exact H1|].
  split; [|exact H3]. intros He. destruct (H2 He) as (x & Ex & Hx). exists x. split; [exact Ex|].
  split; [exact (proj1 Hx)|]. split; [exact (veq_kind _ _ Hx) | exact (veq_str _ _ Hx)].
Qed.
Print Assumptions C36_valid.
Example C36_case_yes : exists v, get (bs " {""a"":1}") (bs "@valid") = Ok v /\ v_json v = bs "{""a"":1}".
Proof. eexists. split; [vm_compute; reflexivity|]. vm_compute. reflexivity. Qed.
Example C36_case_no : exists v, get (bs " {""a"":1,}") (bs "@valid") = Ok v /\ v_exists v = false.
Proof. eexists. split; [vm_compute; reflexivity|]. vm_compute. reflexivity. Qed.

(** C37: [@reverse] gives the elements or the members in reverse order ([reversed] in
    S_Mod), without the whitespace between them; scalars are unchanged. *)
Theorem C37_reverse : forall w1 c w2 arg, ws w1 -> wf c -> ws w2 -> arg_ok arg ->
  exists v, get (w1 ++ render c ++ w2) (modifier (bs "reverse") arg) = Ok v /\ shows v (reversed c).
Proof. exact get_reverse. Qed.
Print Assumptions C37_reverse.
(** Twice gives the original order. *)
Theorem C37_twice : forall w1 c w2, ws w1 -> wf c -> ws w2 ->
  exists v, get (w1 ++ render c ++ w2) (bs "@reverse|@reverse") = Ok v /\
    shows v (match c with CArr _ es => CArr [] (map bare_item es) | CObj _ ms => CObj [] (map bare_memb ms) | _ => c end).
Proof.
  intros w1 c w2 H1 H2 H3. destruct (get_reverse_twice w1 c w2 H1 H2 H3) as (v & E & S).
  exists v. split; [exact E|]. rewrite <- reversed_twice. exact S.
Qed.
Print Assumptions C37_twice.
Example C37_case : exists v, get (bs " { ""a"" :1, ""b"": [2, 3] } ") (bs "@reverse") = Ok v /\
  v_json v = bs "{""b"": [2, 3],""a"" :1}".
Proof. eexists. split; [vm_compute; reflexivity|]. vm_compute. reflexivity. Qed.
Example C37_case_arr : exists v, get (bs "[1, ""x"",[2, 3] ]") (bs "@reverse:{""a"":1}") = Ok v /\
  v_json v = bs "[[2, 3],""x"",1]".
Proof. eexists. split; [vm_compute; reflexivity|]. vm_compute. reflexivity. Qed.

(** C38: [@flatten] on an array.  The argument decides by [get arg "deep"] and [bool] of
    the result.  Without [deep], the result is an array whose elements are those of the
    original, child arrays replaced by their elements.  Missing: child arrays without
    elements but with whitespace inside, where the result is not JSON (refuted below). *)
Theorem C38_flatten_partial : forall w1 w es w2 arg dv, ws w1 -> wf (CArr w es) -> ws w2 -> arg_ok arg ->
  get (arg_text arg) (bs "deep") = Ok dv -> v_bool dv = Ok false ->
  Forall (fun e => forall w', i_val e = CArr w' [] -> w' = []) es ->
  exists v es', get (w1 ++ render (CArr w es) ++ w2) (modifier (bs "flatten") arg) = Ok v /\ shows v (CArr [] es') /\
    wf (CArr [] es') /\ map i_val es' = flat_once (map i_val es).
Proof.
  intros w1 w es w2 arg dv H1 H2 H3 H4 H5 H6 H7. apply (get_flatten w1 w es w2 arg dv); auto.
  eapply Forall_impl; [|exact H7]. cbn beta. intros e He Hh.
  destruct (i_val e) as [ | | |n|b|w' [|x es']|w' ms]; cbn [hollow] in Hh; try contradiction. apply Hh, (He w'), eq_refl.
Qed.
Print Assumptions C38_flatten_partial.
Theorem C38_flatten_refuted : exists json v, valid json = Ok true /\ get json (bs "@flatten") = Ok v /\
  v_json v = bs "[ ,1]" /\ valid (v_json v) = Ok false.
Proof.
  exists (bs "[[ ],1]"). eexists. split; [vm_compute; reflexivity|]. split; [vm_compute; reflexivity|]. split; vm_compute; reflexivity.
Qed.
Print Assumptions C38_flatten_refuted.
(** With [deep]: the values inside the array that are not arrays, in order. *)
Theorem C38_deep : forall w1 w es w2 arg dv, ws w1 -> wf (CArr w es) -> ws w2 -> arg_ok arg ->
  get (arg_text arg) (bs "deep") = Ok dv -> v_bool dv = Ok true ->
  exists v, get (w1 ++ render (CArr w es) ++ w2) (modifier (bs "flatten") arg) = Ok v /\
    shows v (array_of (flat_deep (CArr w es))).
Proof. exact get_flatten_deep. Qed.
Print Assumptions C38_deep.
(** Other values are unchanged. *)
Theorem C38_other : forall w1 c w2 arg, ws w1 -> wf c -> ws w2 -> arg_ok arg ->
  match c with CArr _ _ => False | _ => True end ->
  exists v, get (w1 ++ render c ++ w2) (modifier (bs "flatten") arg) = Ok v /\ presents v c.
Proof.
  intros w1 c w2 arg H1 H2 H3 H4 H5. apply get_flatten_other; auto. destruct c; try reflexivity. contradiction.
Qed.
Print Assumptions C38_other.
(** Without an argument, [deep] is false; the argument [{"deep":true}] makes it true. *)
Theorem C38_default : exists dv, get (arg_text None) (bs "deep") = Ok dv /\ v_bool dv = Ok false.
Proof. eexists. split; [vm_compute; reflexivity|]. vm_compute. reflexivity. Qed.
Print Assumptions C38_default.
Theorem C38_deep_arg : arg_ok (Some (bs "{""deep"":true}")) /\
  exists dv, get (arg_text (Some (bs "{""deep"":true}"))) (bs "deep") = Ok dv /\ v_bool dv = Ok true.
Proof.
  split.
  - apply (ma_json (CObj [] [Memb [] (bs "deep") [] [] CTrue []])); [|exact I]. apply wfb_wf. vm_compute. reflexivity.
  - eexists. split; [vm_compute; reflexivity|]. vm_compute. reflexivity.
Qed.
Print Assumptions C38_deep_arg.
Example C38_case : exists v, get (bs "[1, [2,[3, 4]], [], {""a"":[5]}]") (bs "@flatten") = Ok v /\
  v_json v = bs "[1,2,[3, 4],{""a"":[5]}]".
Proof. eexists. split; [vm_compute; reflexivity|]. vm_compute. reflexivity. Qed.
Example C38_deep_case : exists v, get (bs "[1, [2,[3, 4]], [ ], {""a"":[5]}]") (bs "@flatten:{""deep"":true}") = Ok v /\
  v_json v = bs "[1,2,3,4,{""a"":[5]}]".
Proof. eexists. split; [vm_compute; reflexivity|]. vm_compute. reflexivity. Qed.

(** C39: [@join] on an array merges the members of the objects among its elements
    ([merged] in S_Join): each name once, at the place and in the spelling of its first
    appearance, with its last value. *)
Theorem C39_join : forall w1 w es w2 arg dv, ws w1 -> wf (CArr w es) -> ws w2 -> arg_ok arg ->
  get (arg_text arg) (bs "preserve") = Ok dv -> v_bool dv = Ok false ->
  exists v out, get (w1 ++ render (CArr w es) ++ w2) (modifier (bs "join") arg) = Ok v /\ shows v (CObj [] out) /\
    wf (CObj [] out) /\ merged (all_members es) out.
Proof. exact get_join. Qed.
Print Assumptions C39_join.
(** What merging means: no name twice, no name lost, no name invented. *)
Theorem C39_merged_names : forall ms out, merged ms out ->
  (forall a o b o' c, out = a ++ o :: b ++ o' :: c -> ~ same_name o o') /\
  (forall m, In m ms -> exists o, In o out /\ same_name o m) /\
  (forall o, In o out -> exists m, In m ms /\ m_key m = m_key o).
Proof. exact merged_names. Qed.
Print Assumptions C39_merged_names.
(** With [preserve], all members in order.  Missing: empty objects among the elements,
    where the result need not be JSON (refuted below). *)
Theorem C39_preserve_partial : forall w1 w es w2 arg dv, ws w1 -> wf (CArr w es) -> ws w2 -> arg_ok arg ->
  get (arg_text arg) (bs "preserve") = Ok dv -> v_bool dv = Ok true ->
  Forall (fun e => forall w', i_val e <> CObj w' []) es ->
  exists v ms, get (w1 ++ render (CArr w es) ++ w2) (modifier (bs "join") arg) = Ok v /\ shows v (CObj [] ms) /\
    wf (CObj [] ms) /\ map (fun m => (m_key m, m_val m)) ms = map (fun m => (m_key m, m_val m)) (all_members es).
Proof.
  intros w1 w es w2 arg dv H1 H2 H3 H4 H5 H6 H7. apply (get_join_preserve w1 w es w2 arg dv); auto.
  eapply Forall_impl; [|exact H7]. cbn beta. intros e He Hh.
  destruct (i_val e) as [ | | |n|b|w' es'|w' [|x ms]]; cbn [empty_obj] in Hh; try contradiction. apply (He w'), eq_refl.
Qed.
Print Assumptions C39_preserve_partial.
Theorem C39_preserve_refuted : exists json v, valid json = Ok true /\ get json (bs "@join:{""preserve"":true}") = Ok v /\
  v_json v = bs "{,""a"":1}" /\ valid (v_json v) = Ok false.
Proof.
  exists (bs "[{},{""a"":1}]"). eexists. split; [vm_compute; reflexivity|]. split; [vm_compute; reflexivity|]. split; vm_compute; reflexivity.
Qed.
Print Assumptions C39_preserve_refuted.
(** Other values are unchanged. *)
Theorem C39_other : forall w1 c w2 arg, ws w1 -> wf c -> ws w2 -> arg_ok arg ->
  match c with CArr _ _ => False | _ => True end ->
  exists v, get (w1 ++ render c ++ w2) (modifier (bs "join") arg) = Ok v /\ presents v c.
Proof.
  intros w1 c w2 arg H1 H2 H3 H4 H5. apply get_join_other; auto. destruct c; try reflexivity. contradiction.
Qed.
Print Assumptions C39_other.
Theorem C39_default : exists dv, get (arg_text None) (bs "preserve") = Ok dv /\ v_bool dv = Ok false.
Proof. eexists. split; [vm_compute; reflexivity|]. vm_compute. reflexivity. Qed.
Print Assumptions C39_default.
Theorem C39_preserve_arg : arg_ok (Some (bs "{""preserve"":true}")) /\
  exists dv, get (arg_text (Some (bs "{""preserve"":true}"))) (bs "preserve") = Ok dv /\ v_bool dv = Ok true.
Proof.
  split.
  - apply (ma_json (CObj [] [Memb [] (bs "preserve") [] [] CTrue []])); [|exact I]. apply wfb_wf. vm_compute. reflexivity.
  - eexists. split; [vm_compute; reflexivity|]. vm_compute. reflexivity.
Qed.
Print Assumptions C39_preserve_arg.
Example C39_case : exists v, get (bs "[{""a"":1, ""b"":2}, 7, {""c"": [3] ,""a"":4}]") (bs "@join") = Ok v /\
  v_json v = bs "{""a"":4,""b"":2,""c"":[3]}".
Proof. eexists. split; [vm_compute; reflexivity|]. vm_compute. reflexivity. Qed.
Example C39_preserve_case : exists v, get (bs "[{""a"":1, ""b"":2}, 7, {""c"": [3] ,""a"":4}]") (bs "@join:{""preserve"":true}") = Ok v /\
  v_json v = bs "{""a"":1, ""b"":2,""c"": [3] ,""a"":4}".
Proof. eexists. split; [vm_compute; reflexivity|]. vm_compute. reflexivity. Qed.

(** C45: an unknown modifier selects nothing, alone and after a pipe. *)
Theorem C45_unknown : forall json name arg, mod_name name -> arg_ok arg ->
  ~ In name [bs "this"; bs "reverse"; bs "ugly"; bs "pretty"; bs "valid"; bs "flatten"; bs "join"] ->
  exists v, get json (modifier name arg) = Ok v /\ absent v.
Proof. exact unknown_absent. Qed.
Print Assumptions C45_unknown.
Theorem C45_pipe_unknown : forall json ks name arg, ks <> [] -> Forall any_comp ks -> no_modifier (dotted ks) ->
  mod_name name -> arg_ok arg ->
  ~ In name [bs "this"; bs "reverse"; bs "ugly"; bs "pretty"; bs "valid"; bs "flatten"; bs "join"] ->
  exists v, get json (dotted ks ++ bs "|" ++ modifier name arg) = Ok v /\ absent v.
Proof. exact pipe_unknown. Qed.
Print Assumptions C45_pipe_unknown.
Example C45_case : exists v, get (bs "{""a"":1}") (bs "a|@case:""upper""") = Ok v /\ v_exists v = false.
Proof. eexists. split; [vm_compute; reflexivity|]. vm_compute. reflexivity. Qed.
Example C45_case_arg : modifier (bs "case") (Some (bs """upper""")) = bs "@case:""upper""" /\ arg_ok (Some (bs """upper""")).
Proof. split; [reflexivity|]. apply (ma_json (CStr (bs "upper"))); [|exact I]. apply wfb_wf. vm_compute. reflexivity. Qed.

(** C49: [@ugly] and [@pretty] are the functions ugly, pretty and pretty_options, for
    every byte string: the result is the parsed output. *)
Theorem C49_ugly : forall json arg, arg_ok arg ->
  exists out v x, ugly json = Ok out /\ get json (modifier (bs "ugly") arg) = Ok v /\
    parse out = Ok x /\ v_json v = v_json x /\ v_kind v = v_kind x /\ v_str v = v_str x.
Proof. exact get_ugly. Qed.
Print Assumptions C49_ugly.
Theorem C49_pretty : forall json,
  exists out v x, pretty json = Ok out /\ get json (bs "@pretty") = Ok v /\
    parse out = Ok x /\ v_json v = v_json x /\ v_kind v = v_kind x /\ v_str v = v_str x.
Proof. exact get_pretty. Qed.
Print Assumptions C49_pretty.
(** The fields of the argument are the options ([pretty_arg] in S_PrettyArg). *)
Theorem C49_pretty_arg : forall json arg o, mod_arg arg -> arg <> [] -> pretty_arg arg o ->
  exists out v x, pretty_options json o = Ok out /\ get json (modifier (bs "pretty") (Some arg)) = Ok v /\
    parse out = Ok x /\ v_json v = v_json x /\ v_kind v = v_kind x /\ v_str v = v_str x.
Proof. exact get_pretty_arg. Qed.
Print Assumptions C49_pretty_arg.
(** On a document: the minimal text, and the same tokens. *)
Theorem C49_ugly_doc : forall json t arg, reads json t -> arg_ok arg ->
  exists v, get json (modifier (bs "ugly") arg) = Ok v /\ v_json v = minimal t.
Proof. exact get_ugly_doc. Qed.
Print Assumptions C49_ugly_doc.
Theorem C49_pretty_doc : forall json t, reads json t ->
  exists v, get json (bs "@pretty") = Ok v /\ reads (v_json v) t.
Proof. exact get_pretty_doc. Qed.
Print Assumptions C49_pretty_doc.
Example C49_case_ugly : exists v, get (bs " [ 1 , {""a"" : 2 } ] ") (bs "@ugly") = Ok v /\ v_json v = bs "[1,{""a"":2}]".
Proof. eexists. split; [vm_compute; reflexivity|]. vm_compute. reflexivity. Qed.
Example C49_case_pretty : exists v, get (bs "{""b"":1,""a"":2}") (bs "@pretty:{""sortKeys"":true,""indent"":""""}") = Ok v /\
  v_json v = bs "{" ++ [10%N] ++ bs """a"": 2," ++ [10%N] ++ bs """b"": 1" ++ [10%N] ++ bs "}" ++ [10%N].
Proof. eexists. split; [vm_compute; reflexivity|]. vm_compute. reflexivity. Qed.
Example C49_case_arg : pretty_arg (bs "{""sortKeys"":true,""indent"":""""}") (mkOpts 80 [] [] true).
Proof.
  split.
  - eexists. split; [vm_compute; reflexivity|]. vm_compute. reflexivity.
  - eexists. split; [vm_compute; reflexivity|]. vm_compute. reflexivity.
  - eexists. split; [vm_compute; reflexivity|]. vm_compute. reflexivity.
  - eexists. split; [vm_compute; reflexivity|]. vm_compute. reflexivity.
Qed.

(** Properties C07, C11, C13 to C17, C47: one component applied to a document.
    A document is [w1 ++ render c ++ w2] with whitespace [w1] and a well-formed
    syntax tree [c] (S_Json.v; C01 says these are exactly the valid texts when [w2]
    is whitespace as well; the theorems do not even need that).
    [gets_first json k P ms] (S_Query.v) says that get(json, k) shows the value of
    the first of the members [ms] whose decoded name satisfies [P], and does not
    exist when there is none. *)
From Coq Require Import String List.
From Verif Require Import M_Base S_Json S_Str S_Get S_Path S_Query M_Util M_Value M_Get P_Wf P_GetDoc P_GetArr.

Definition gobj : cst :=
  CObj [] [Memb [] (bs "x") [] [] (CObj [] [Memb [] (bs "a") [] [] (CNum (bs "0")) []]) [];
           Memb (bs " ") (92 :: 117 :: bs "0061")%N [] (bs " ") (CStr (bs "1}")) [];
           Memb [] (bs "a") [] [] (CNum (bs "2")) [];
           Memb [] (bs "b.c") [] [] (CArr [] [Item [] (CNum (bs "3")) []]) []].
Definition garr : cst :=
  CArr [] [Item [] (CObj [] [Memb [] (bs "n") [] [] (CNum (bs "1")) []; Memb [] (bs "s") [] [] (CStr (bs "],")) []]) [];
           Item (bs " ") (CObj [] [Memb [] (bs "n") [] [] (CNum (bs "5")) []; Memb [] (bs "s") [] [] (CStr (bs "y")) []]) [];
           Item (bs " ") (CNum (bs "7")) (bs " ");
           Item [] (CObj [] [Memb [] (bs "n") [] [] (CNum (bs "9")) []]) []].
Example gobj_wf : wf gobj.
Proof. apply wfb_wf. vm_compute. reflexivity. Qed.
Example garr_wf : wf garr /\ render garr = bs "[{""n"":1,""s"":""],""}, {""n"":5,""s"":""y""}, 7 ,{""n"":9}]".
Proof. split; [apply wfb_wf|]; vm_compute; reflexivity. Qed.

(** C11: a plain key selects the first member whose decoded name is the key. *)
Theorem C11_key : forall w1 w ms w2 k, ws w1 -> wf (CObj w ms) -> plain_key k ->
  gets_first (w1 ++ render (CObj w ms) ++ w2) k (eq k) ms.
Proof. exact get_name. Qed.
Print Assumptions C11_key.
Example C11_case : exists v, get (bs " " ++ render gobj) (bs "a") = Ok v /\ v_json v = bs """1}""".
Proof. eexists. split; [vm_compute; reflexivity|]. vm_compute. reflexivity. Qed.

(** C47: so does any name written with a backslash before each special byte, as
    long as there is no question mark in it ... *)
Theorem C47_escaped_key_partial : forall w1 w ms w2 k, ws w1 -> wf (CObj w ms) -> ~ In 0x3F%N k ->
  gets_first (w1 ++ render (CObj w ms) ++ w2) (path_escape k) (eq k) ms.
Proof. exact get_escaped. Qed.
Print Assumptions C47_escaped_key_partial.
Example C47_case : path_escape (bs "b.c") = bs "b\.c" /\
  exists v, get (render gobj) (path_escape (bs "b.c")) = Ok v /\ v_json v = bs "[3]".
Proof. split; [vm_compute; reflexivity|]. eexists. split; [vm_compute; reflexivity|]. vm_compute. reflexivity. Qed.
(** ... because an escaped question mark still matches anything. *)
Theorem C47_escaped_key_refuted : exists w ms k, wf (CObj w ms) /\
  ~ gets_first (render (CObj w ms)) (path_escape k) (eq k) ms.
Proof.
  exists [], [Memb [] (bs "ab") [] [] (CNum (bs "1")) []], (bs "a?"). split; [apply wfb_wf; vm_compute; reflexivity|].
  intros [_ H]. destruct H as (v & Hv & He).
  - constructor; [|constructor]. intros n Hn. unfold named in Hn. vm_compute in Hn. injection Hn as <-. vm_compute. discriminate.
  - vm_compute in Hv. injection Hv as <-. vm_compute in He. discriminate.
Qed.
Print Assumptions C47_escaped_key_refuted.

(** What an escaped name selects, exactly: the first member whose name agrees with it
    byte by byte except where it has question marks. *)
Theorem C47_escaped_key_exact : forall w1 w ms w2 k, ws w1 -> wf (CObj w ms) ->
  gets_first (w1 ++ render (CObj w ms) ++ w2) (path_escape k) (Forall2 (fun a b => a = 0x3F%N \/ a = b) k) ms.
Proof. exact get_escaped_exact. Qed.
Print Assumptions C47_escaped_key_exact.
Example C47_exact_case : path_escape (bs "b??") = bs "b\?\?" /\
  exists v, get (render gobj) (path_escape (bs "b??")) = Ok v /\ v_json v = bs "[3]".
Proof. split; [vm_compute; reflexivity|]. eexists. split; [vm_compute; reflexivity|]. vm_compute. reflexivity. Qed.

(** C07: a component with wildcards selects the first member whose name matches the
    glob, unless it contains an escaped question mark, or a question mark and names
    that are not ASCII ... *)
Theorem C07_get_partial : forall w1 w ms w2 k, ws w1 -> wf (CObj w ms) -> component k ->
  (forall m n, In m ms -> named m n -> (no_escaped_qm k /\ ascii n) \/ (~ In 0x3F%N k /\ utf8 k /\ utf8 n)) ->
  gets_first (w1 ++ render (CObj w ms) ++ w2) k (glob utf8_char k) ms.
Proof. exact get_pattern. Qed.
Print Assumptions C07_get_partial.
(** ... in general a question mark stands for one byte. *)
Theorem C07_get_bytes_partial : forall w1 w ms w2 k, ws w1 -> wf (CObj w ms) -> component k -> no_escaped_qm k ->
  gets_first (w1 ++ render (CObj w ms) ++ w2) k (glob byte_char k) ms.
Proof. exact get_pattern_bytes. Qed.
Print Assumptions C07_get_bytes_partial.
(** ... and for every component whatsoever: an escaped question mark as well. *)
Theorem C07_get_exact : forall w1 w ms w2 k, ws w1 -> wf (CObj w ms) -> component k ->
  gets_first (w1 ++ render (CObj w ms) ++ w2) k (glob byte_char (bare_qm k)) ms.
Proof. exact get_pattern_exact. Qed.
Print Assumptions C07_get_exact.
Example C07_get_exact_case : exists v, get (render gobj) (bs "b\??") = Ok v /\ v_json v = bs "[3]".
Proof. eexists. split; [vm_compute; reflexivity|]. vm_compute. reflexivity. Qed.
Example C07_get_case : exists v, get (render gobj) (bs "b*?") = Ok v /\ v_json v = bs "[3]".
Proof. eexists. split; [vm_compute; reflexivity|]. vm_compute. reflexivity. Qed.
Theorem C07_get_refuted :
  exists w ms k, wf (CObj w ms) /\ component k /\ no_escaped_qm k /\
    ~ gets_first (render (CObj w ms)) k (glob utf8_char k) ms.
Proof.
  exists [], [Memb [] (bs "é") [] [] (CNum (bs "1")) []], (bs "?"). split; [apply wfb_wf; vm_compute; reflexivity|].
  split; [split; [constructor; [vm_compute; intuition discriminate | constructor] | vm_compute; intuition discriminate]|].
  split; [vm_compute; auto|].
  intros [H _]. destruct (H [] (Memb [] (bs "é") [] [] (CNum (bs "1")) []) [] (bs "é") eq_refl) as (v & Hv & Hs).
  - vm_compute. reflexivity.
  - change (glob utf8_char [63%N] ([195; 169]%N ++ [])). constructor; [|constructor].
    exists 233%N. split; [vm_compute; intuition discriminate | vm_compute; reflexivity].
  - constructor.
  - vm_compute in Hv. injection Hv as <-. destruct Hs as [He _ _ _]. vm_compute in He. discriminate.
Qed.
Print Assumptions C07_get_refuted.

(** C13: an index selects that element. *)
Theorem C13_index : forall w1 w es w2 k n, ws w1 -> wf (CArr w es) -> digits1 k -> digits_val k = Z.of_nat n ->
  (forall e, nth_error es n = Some e -> (Z.of_nat n < 2 ^ 63)%Z ->
     exists v, get (w1 ++ render (CArr w es) ++ w2) k = Ok v /\ shows v (i_val e)) /\
  (length es <= n -> exists v, get (w1 ++ render (CArr w es) ++ w2) k = Ok v /\ v_exists v = false).
Proof. exact get_index. Qed.
Print Assumptions C13_index.
Example C13_case : exists v, get (render garr) (bs "1") = Ok v /\ v_json v = bs "{""n"":5,""s"":""y""}".
Proof. eexists. split; [vm_compute; reflexivity|]. vm_compute. reflexivity. Qed.
(** A name that is not a number selects nothing in an array. *)
Theorem C13_no_index : forall w1 w es w2 k, ws w1 -> wf (CArr w es) -> component k ->
  ~ digits1 k -> hd 0%N k <> 0x2B%N -> hd 0%N k <> 0x2D%N ->
  exists v, get (w1 ++ render (CArr w es) ++ w2) k = Ok v /\ v_exists v = false.
Proof. exact get_no_index. Qed.
Print Assumptions C13_no_index.

(** C14: the hash is the number of elements, as a canonical JSON number. *)
Theorem C14_count : forall w1 w es w2, ws w1 -> wf (CArr w es) ->
  exists v, get (w1 ++ render (CArr w es) ++ w2) [0x23%N] = Ok v /\ shows v (CNum (v_json v)) /\
    int_literal (v_json v) (Z.of_nat (length es)) /\ number (v_json v).
Proof. exact get_count. Qed.
Print Assumptions C14_count.
Example C14_case : exists v, get (render garr) (bs "#") = Ok v /\ v_json v = bs "4".
Proof. eexists. split; [vm_compute; reflexivity|]. vm_compute. reflexivity. Qed.

(** C15: the results of a sub-path for all elements where it exists, in order.
    [res] gives the result of the sub-path for each element. *)
Theorem C15_each : forall w1 w es w2 ks (res : cst -> value), ws w1 -> wf (CArr w es) ->
  Forall any_comp ks -> ks <> [] ->
  (forall e, In e es -> get (render (i_val e)) (dotted ks) = Ok (res (i_val e))) ->
  exists v, get (w1 ++ render (CArr w es) ++ w2) (0x23%N :: 0x2E%N :: dotted ks) = Ok v /\
    v_exists v = true /\ v_kind v = KArray /\
    v_json v = 0x5B%N :: commas (map v_json (filter v_exists (map (fun e => res (i_val e)) es))) ++ [0x5D%N].
Proof. exact get_each. Qed.
Print Assumptions C15_each.
Example C15_case : exists v, get (render garr) (bs "#.s") = Ok v /\ v_json v = bs "[""],"",""y""]".
Proof. eexists. split; [vm_compute; reflexivity|]. vm_compute. reflexivity. Qed.

(** C16: the first element that satisfies the query.  [q_holds c q b] (S_Query.v):
    whether the one-element array of [c] has a match is [b]. *)
Theorem C16_first : forall w1 w es w2 q, ws w1 -> wf (CArr w es) -> balanced q ->
  (forall a e b, es = a ++ e :: b -> Forall (fun x => q_holds (i_val x) q false) a -> q_holds (i_val e) q true ->
     exists v, get (w1 ++ render (CArr w es) ++ w2) (qcomp q false) = Ok v /\ shows v (i_val e)) /\
  (Forall (fun x => q_holds (i_val x) q false) es ->
     exists v, get (w1 ++ render (CArr w es) ++ w2) (qcomp q false) = Ok v /\ v_exists v = false).
Proof. exact get_query. Qed.
Print Assumptions C16_first.
Example C16_case : qcomp (bs "n>2") false = bs "#(n>2)" /\
  q_holds (CObj [] [Memb [] (bs "n") [] [] (CNum (bs "1")) []; Memb [] (bs "s") [] [] (CStr (bs "],")) []]) (bs "n>2") false /\
  q_holds (CObj [] [Memb [] (bs "n") [] [] (CNum (bs "5")) []; Memb [] (bs "s") [] [] (CStr (bs "y")) []]) (bs "n>2") true /\
  exists v, get (render garr) (bs "#(n>2)") = Ok v /\ v_json v = bs "{""n"":5,""s"":""y""}".
Proof.
  split; [reflexivity|]. split; [|split]; eexists; (split; [vm_compute; reflexivity|]); vm_compute; reflexivity.
Qed.

(** C17: all elements that satisfy the query, in order ... *)
Theorem C17_all : forall w1 w es w2 q (sel : cst -> bool), ws w1 -> wf (CArr w es) -> balanced q ->
  (forall e, In e es -> q_holds (i_val e) q (sel (i_val e))) ->
  exists v, get (w1 ++ render (CArr w es) ++ w2) (qcomp q true) = Ok v /\ v_exists v = true /\ v_kind v = KArray /\
    v_json v = 0x5B%N :: commas (map (fun e => render (i_val e)) (filter (fun e => sel (i_val e)) es)) ++ [0x5D%N].
Proof. exact get_query_all. Qed.
Print Assumptions C17_all.
(** ... and their sub-results when a sub-path follows. *)
Theorem C17_all_each : forall w1 w es w2 q (sel : cst -> bool) ks (res : cst -> value),
  ws w1 -> wf (CArr w es) -> balanced q -> Forall any_comp ks -> ks <> [] ->
  (forall e, In e es -> q_holds (i_val e) q (sel (i_val e))) ->
  (forall e, In e es -> sel (i_val e) = true -> get (render (i_val e)) (dotted ks) = Ok (res (i_val e))) ->
  exists v, get (w1 ++ render (CArr w es) ++ w2) (qcomp q true ++ 0x2E%N :: dotted ks) = Ok v /\
    v_exists v = true /\ v_kind v = KArray /\
    v_json v = 0x5B%N :: commas (map v_json (filter v_exists
      (map (fun e => res (i_val e)) (filter (fun e => sel (i_val e)) es)))) ++ [0x5D%N].
Proof. exact get_query_each. Qed.
Print Assumptions C17_all_each.
Example C17_case :
  (exists v, get (render garr) (bs "#(n>2)#") = Ok v /\ v_json v = bs "[{""n"":5,""s"":""y""},{""n"":9}]") /\
  (exists v, get (render garr) (bs "#(n>2)#.n") = Ok v /\ v_json v = bs "[5,9]").
Proof. split; eexists; (split; [vm_compute; reflexivity|]); vm_compute; reflexivity. Qed.

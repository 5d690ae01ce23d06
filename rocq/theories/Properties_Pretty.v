(** Properties C40, C41, C42, C44, C46, C54: minifying and pretty printing.
    [reads s t] (S_Tree) says that [s] is a JSON text and [t] its tokens. *)
From Coq Require Import String List Permutation Sorted.
From Verif Require Import M_Base S_Json S_Tree S_Layout M_Valid M_Pretty P_Tree P_PTree P_POut P_Layout.

(** A document with whitespace, escapes, numbers and duplicate names, used below. *)
Definition doc1 : list N := bs " { ""b"" : [ 1.5e3 , true,null ] ,""a"":{""x"" :""q\""s""}, ""b"" :[ ]}".
Definition tree1 : tree :=
  TObj [ (bs "b", TArr [TNum (bs "1.5e3"); TTrue; TNull]);
         (bs "a", TObj [(bs "x", TStr (bs "q\""s"))]);
         (bs "b", TArr []) ].

(** Every valid document is read by some tree, and only valid ones are. *)
Theorem reads_iff_valid : forall s, valid s = Ok true <-> exists t, reads s t.
Proof. exact reads_valid. Qed.
Print Assumptions reads_iff_valid.

Example doc1_reads : reads doc1 tree1.
Proof.
  exists (bs " "), (CObj [] [
     Memb (bs " ") (bs "b") (bs " ") (bs " ")
       (CArr [] [Item (bs " ") (CNum (bs "1.5e3")) (bs " "); Item (bs " ") CTrue []; Item [] CNull (bs " ")]) (bs " ");
     Memb [] (bs "a") [] [] (CObj [] [Memb [] (bs "x") (bs " ") [] (CStr (bs "q\""s")) []]) [];
     Memb (bs " ") (bs "b") (bs " ") [] (CArr (bs " ") []) [] ]), [].
  assert (W : ws (bs " ")) by (constructor; [left; reflexivity|constructor]).
  assert (W0 : ws []) by constructor.
  assert (C1 : chars (bs "b")) by (apply chars_plain; [vm_compute; repeat split; congruence | constructor]).
  assert (C2 : chars (bs "a")) by (apply chars_plain; [vm_compute; repeat split; congruence | constructor]).
  assert (C3 : chars (bs "x")) by (apply chars_plain; [vm_compute; repeat split; congruence | constructor]).
  assert (C4 : chars (bs "q\""s")).
  { apply chars_plain; [vm_compute; repeat split; congruence |].
    apply chars_short; [vm_compute; tauto|].
    apply chars_plain; [vm_compute; repeat split; congruence | constructor]. }
  assert (N1 : number (bs "1.5e3")).
  { apply (number_intro [] (bs "1") (bs ".5") (bs "e3")); auto.
    - apply (int_pos 49 []); [lia | constructor].
    - apply (frac_some (bs "5")). split; [discriminate|]. constructor; [vm_compute; intuition discriminate | constructor].
    - apply (exp_some 101 [] (bs "3")); auto. split; [discriminate|].
      constructor; [vm_compute; intuition discriminate | constructor]. }
  split; [exact W|]. split; [|split; [exact W0|]; split; vm_compute; reflexivity].
  repeat (constructor; auto).
Qed.

(** C40: [ugly] of a valid document is exactly its tokens with nothing between them. *)
Theorem C40_ugly : forall s t, reads s t -> ugly s = Ok (minimal t) /\ reads (minimal t) t.
Proof. exact ugly_reads. Qed.
Print Assumptions C40_ugly.
Example C40_case : ugly doc1 = Ok (bs "{""b"":[1.5e3,true,null],""a"":{""x"":""q\""s""},""b"":[]}").
Proof. apply (C40_ugly doc1 tree1 doc1_reads). Qed.

(** C40, without the trees: the output is valid and a fixed point. *)
Theorem C40_ugly_valid : forall s, valid s = Ok true ->
  exists u, ugly s = Ok u /\ valid u = Ok true /\ ugly u = Ok u.
Proof. exact ugly_valid. Qed.
Print Assumptions C40_ugly_valid.
Example C40_valid_case : valid doc1 = Ok true.
Proof. vm_compute. reflexivity. Qed.

(** C41: with a blank prefix and indentation and without key sorting, the pretty
    printer changes only whitespace, at any nesting depth and for any width. *)
Theorem C41_pretty_only_whitespace : forall s t o,
  reads s t -> ws (o_prefix o) -> ws (o_indent o) -> o_sort o = false ->
  exists out, pretty_options s o = Ok out /\ reads out t.
Proof. exact pretty_reads_unsorted. Qed.
Print Assumptions C41_pretty_only_whitespace.
Theorem C41_pretty_same_minified : forall s o,
  valid s = Ok true -> ws (o_prefix o) -> ws (o_indent o) -> o_sort o = false ->
  exists out, pretty_options s o = Ok out /\ valid out = Ok true /\ ugly out = ugly s.
Proof. exact pretty_keeps_min. Qed.
Print Assumptions C41_pretty_same_minified.
Example C41_case :
  pretty doc1 = Ok (bs "{" ++ [10] ++ bs "  ""b"": [1.5e3, true, null]," ++ [10] ++ bs "  ""a"": {" ++ [10]
     ++ bs "    ""x"": ""q\""s""" ++ [10] ++ bs "  }," ++ [10] ++ bs "  ""b"": []" ++ [10] ++ bs "}" ++ [10])%N.
Proof. vm_compute. reflexivity. Qed.
Example C41_case_default : ws (o_prefix popts_default) /\ ws (o_indent popts_default) /\ o_sort popts_default = false.
Proof. repeat split; repeat (constructor; try (left; reflexivity)). Qed.

(** C42: with key sorting and nesting below the printer's limit of 500, the output
    reads as the same tree with the members of every object sorted.  From 500 levels
    on the printer copies the input without sorting. *)
Theorem C42_sort_keys : forall s t o,
  reads s t -> ws (o_prefix o) -> ws (o_indent o) -> o_sort o = true -> height t < 500 ->
  exists out, pretty_options s o = Ok out /\ reads out (sorted t).
Proof. exact pretty_sorts. Qed.
Print Assumptions C42_sort_keys.
Example C42_case : height tree1 = 2 /\
  pretty_options doc1 (mkOpts 80 [] [] true)
  = Ok (bs "{" ++ [10] ++ bs """a"": {" ++ [10] ++ bs """x"": ""q\""s""" ++ [10] ++ bs "}," ++ [10]
        ++ bs """b"": [1.5e3, true, null]," ++ [10] ++ bs """b"": []" ++ [10] ++ bs "}" ++ [10])%N.
Proof. split; vm_compute; reflexivity. Qed.

(** C42 without a limit on the nesting: the members of every object are sorted up to the
    first array or object at level 500; that one, what follows it in the document and
    the objects around it keep their order. *)
Theorem C42_any_depth : forall s t o,
  reads s t -> ws (o_prefix o) -> ws (o_indent o) -> o_sort o = true ->
  exists out, pretty_options s o = Ok out /\ reads out (fst (sorted_within 499 t)).
Proof. exact pretty_sorts_any. Qed.
Print Assumptions C42_any_depth.
Theorem C42_below : forall t n, height t <= n -> sorted_within n t = (sorted t, false).
Proof. exact sorted_below. Qed.
Print Assumptions C42_below.
Example C42_any_case :
  let ms := fun v => [(bs "c", TObj [(bs "y", TNull); (bs "x", TNull)]); (bs "b", v); (bs "a", TObj [(bs "y", TNull); (bs "x", TNull)])] in
  sorted_within 2 (TObj (ms (TArr [TArr [TObj (ms TNull)]]))) =
    (TObj [(bs "c", TObj [(bs "x", TNull); (bs "y", TNull)]); (bs "b", TArr [TArr [TObj (ms TNull)]]);
           (bs "a", TObj [(bs "y", TNull); (bs "x", TNull)])], true) /\
  sorted_within 5 (TObj (ms (TArr [TArr [TObj (ms TNull)]]))) = (sorted (TObj (ms (TArr [TArr [TObj (ms TNull)]]))), false).
Proof. split; vm_compute; reflexivity. Qed.

(** Nothing is lost or altered: the output is the same document up to the order of the
    members, at any nesting and for any options with a blank prefix and indentation. *)
Theorem C42_keeps : forall s t o,
  reads s t -> ws (o_prefix o) -> ws (o_indent o) ->
  exists out t', pretty_options s o = Ok out /\ reads out t' /\ reordered t t'.
Proof. exact pretty_keeps_members. Qed.
Print Assumptions C42_keeps.

(** The bound of [C42_sort_keys] is needed. *)
Theorem C42_deep_refuted : exists s t o out,
  reads s t /\ ws (o_prefix o) /\ ws (o_indent o) /\ o_sort o = true /\
  pretty_options s o = Ok out /\ ~ reads out (sorted t).
Proof. exact deep_unsorted. Qed.
Print Assumptions C42_deep_refuted.

(** What [sort_members] means: the same members, in byte order of their names,
    members with the same name in their original order. *)
Theorem C42_sort_members : forall l : list (list N * tree),
  Permutation l (sort_members l) /\
  StronglySorted (fun x y => le_text (fst x) (fst y) = true) (sort_members l) /\
  forall (p : list N * tree -> bool) k, (forall m, p m = true <-> fst m = k) ->
    filter p (sort_members l) = filter p l.
Proof. exact sort_members_facts. Qed.
Print Assumptions C42_sort_members.
Theorem C42_byte_order : forall a b, le_text a b = true <->
  a = b \/ (exists p y t, a = p /\ b = p ++ y :: t) \/
  (exists p x y s t, a = p ++ x :: s /\ b = p ++ y :: t /\ (x < y)%N).
Proof. exact le_text_app. Qed.
Print Assumptions C42_byte_order.
Example C42_members_case :
  sort_members [(bs "b", TNull); (bs "ab", TTrue); (bs "b", TFalse); (bs "a", TNull)]
  = [(bs "a", TNull); (bs "ab", TTrue); (bs "b", TNull); (bs "b", TFalse)].
Proof. vm_compute. reflexivity. Qed.

(** C44: the whitespace of the input does not matter, for any options. *)
Theorem C44_pretty_ignores_whitespace : forall s s' t o,
  reads s t -> reads s' t -> pretty_options s o = pretty_options s' o.
Proof. exact pretty_same. Qed.
Print Assumptions C44_pretty_ignores_whitespace.
Theorem C44_pretty_of_ugly : forall s o, valid s = Ok true ->
  exists u, ugly s = Ok u /\ pretty_options u o = pretty_options s o.
Proof. exact pretty_ugly. Qed.
Print Assumptions C44_pretty_of_ugly.
Theorem C44_pretty_idempotent : forall s o,
  valid s = Ok true -> ws (o_prefix o) -> ws (o_indent o) -> o_sort o = false ->
  exists out, pretty_options s o = Ok out /\ pretty_options out o = Ok out.
Proof. exact pretty_idem. Qed.
Print Assumptions C44_pretty_idempotent.
Example C44_case : reads doc1 tree1 /\ reads (minimal tree1) tree1 /\ doc1 <> minimal tree1.
Proof.
  split; [exact doc1_reads|]. split; [apply (C40_ugly doc1 tree1 doc1_reads)|]. vm_compute. discriminate.
Qed.

(** C46: neither function panics, reads out of bounds or fails to stop, on any
    bytes and for any options. *)
Theorem C46_ugly_total : forall s, exists u, ugly s = Ok u.
Proof. exact ugly_total. Qed.
Print Assumptions C46_ugly_total.
Theorem C46_pretty_total : forall s o, exists out, pretty_options s o = Ok out.
Proof. exact pretty_total. Qed.
Print Assumptions C46_pretty_total.
Example C46_case :
  (exists u, ugly (bs "[[{""a\") = Ok u) /\ exists out, pretty_options (bs "[[{""a\") (mkOpts (-5) [0]%N [200]%N true) = Ok out.
Proof. split; [apply C46_ugly_total | apply C46_pretty_total]. Qed.

(** C54: the output of the pretty printer, byte for byte.  [page] (S_Layout) writes
    members and elements on lines of their own, indented by their nesting level
    behind the prefix, except that an array without objects that fits the width is
    written on one line.  Any prefix and indentation, sorted or not. *)
Theorem C54_layout : forall s t o, reads s t -> height t < 500 ->
  pretty_options s o = Ok (page (o_width o) (o_prefix o) (o_indent o) (o_sort o) t).
Proof. exact pretty_layout. Qed.
Print Assumptions C54_layout.
(** The function without options: width 80, no prefix, two spaces, not sorted. *)
Theorem C54_pretty : forall s t, reads s t -> height t < 500 -> pretty s = Ok (page 80 [] (bs "  ") false t).
Proof. intros s t. exact (pretty_layout s t popts_default). Qed.
Print Assumptions C54_pretty.
Definition LF : list N := [10%N].
Example C54_case : reads doc1 tree1 /\ height tree1 < 500 /\
  page 80 [] (bs "  ") false tree1
  = bs "{" ++ LF ++ bs "  ""b"": [1.5e3, true, null]," ++ LF ++ bs "  ""a"": {" ++ LF
    ++ bs "    ""x"": ""q\""s""" ++ LF ++ bs "  }," ++ LF ++ bs "  ""b"": []" ++ LF ++ bs "}" ++ LF /\
  page 26 (bs "#") (bs "-") true tree1
  = bs "#{" ++ LF ++ bs "#-""a"": {" ++ LF ++ bs "#--""x"": ""q\""s""" ++ LF ++ bs "#-}," ++ LF
    ++ bs "#-""b"": [" ++ LF ++ bs "#--1.5e3," ++ LF ++ bs "#--true," ++ LF ++ bs "#--null" ++ LF ++ bs "#-]," ++ LF
    ++ bs "#-""b"": []" ++ LF ++ bs "#}" ++ LF /\
  page 27 (bs "#") (bs "-") true tree1
  = bs "#{" ++ LF ++ bs "#-""a"": {" ++ LF ++ bs "#--""x"": ""q\""s""" ++ LF ++ bs "#-}," ++ LF
    ++ bs "#-""b"": [1.5e3, true, null]," ++ LF ++ bs "#-""b"": []" ++ LF ++ bs "#}" ++ LF.
Proof. split; [exact doc1_reads|]. split; [vm_compute; repeat constructor|]. repeat split; vm_compute; reflexivity. Qed.

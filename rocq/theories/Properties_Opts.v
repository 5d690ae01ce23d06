(** Properties C70 and C71: the options of the pretty printer. *)
From Coq Require Import String List NArith ZArith.
From Verif Require Import M_Base M_Pretty M_Opts S_Json S_Tree S_Layout S_Opts P_Wf P_POut P_Opts.
Import ListNotations.
Open Scope list_scope.

(** C70: PrettyOptions::new() followed by any calls of width, prefix, indent and
    sort_keys, in any order and number, and then pretty(json).  What counts is the last
    call of each kind, for the others the defaults; [page] (S_Layout) says what the
    output is.  A width below 2^63 is the width of a line. *)
Theorem C70_calls : forall cs s t, reads s t -> height t < 500 -> (asked the_width 80 cs < 2 ^ 63)%N ->
  opts_pretty (calls cs opts_new) s
  = Ok (page (Z.of_N (asked the_width 80%N cs)) (asked the_prefix [] cs) (asked the_indent (bs "  ") cs) (asked the_sorting false cs) t).
Proof. exact calls_layout. Qed.
Print Assumptions C70_calls.
(** Widths from 2^63 on are taken for no width: no array is written on one line. *)
Theorem C70_huge : forall cs s t, reads s t -> height t < 500 -> (2 ^ 63 <= asked the_width 80 cs < 2 ^ 64)%N ->
  opts_pretty (calls cs opts_new) s
  = Ok (page 0 (asked the_prefix [] cs) (asked the_indent (bs "  ") cs) (asked the_sorting false cs) t).
Proof. exact calls_wide. Qed.
Print Assumptions C70_huge.
(** For any text, valid or not: calls that ask for the same give the same output, and
    without any calls it is that of the function [pretty]. *)
Theorem C70_order : forall cs cs' s,
  asked the_width 80%N cs = asked the_width 80%N cs' -> asked the_prefix [] cs = asked the_prefix [] cs' ->
  asked the_indent (bs "  ") cs = asked the_indent (bs "  ") cs' -> asked the_sorting false cs = asked the_sorting false cs' ->
  opts_pretty (calls cs opts_new) s = opts_pretty (calls cs' opts_new) s.
Proof. exact calls_order. Qed.
Print Assumptions C70_order.
Theorem C70_default : forall s, opts_pretty opts_new s = pretty s.
Proof. reflexivity. Qed.
Print Assumptions C70_default.
Definition cs1 := [Width 5; Prefix (bs "> "); SortKeys true; Width 40; Indent (bs "	")].
Definition cs2 := [SortKeys false; Indent (bs "	"); Width 40; SortKeys true; Prefix (bs "> ")].
Definition doc1 := CObj (bs " ") [Memb (bs " ") (bs "b") [] [] (CArr [] [Item [] (CNum (bs "1")) []; Item (bs " ") CTrue []]) []; Memb [] (bs "a") (bs " ") [] (CStr (bs "x")) []].
Example C70_case : reads (render doc1) (erase doc1) /\ height (erase doc1) < 500 /\ (asked the_width 80 cs1 < 2 ^ 63)%N /\
  asked the_width 80%N cs1 = asked the_width 80%N cs2 /\ asked the_prefix [] cs1 = asked the_prefix [] cs2 /\
  asked the_indent (bs "  ") cs1 = asked the_indent (bs "  ") cs2 /\ asked the_sorting false cs1 = asked the_sorting false cs2 /\
  (2 ^ 63 <= asked the_width 80 (cs1 ++ [Width (2 ^ 64 - 1)]) < 2 ^ 64)%N /\
  page (Z.of_N (asked the_width 80%N cs1)) (asked the_prefix [] cs1) (asked the_indent (bs "  ") cs1) (asked the_sorting false cs1) (erase doc1)
  = bs "> {" ++ [10%N] ++ bs "> 	""a"": ""x""," ++ [10%N] ++ bs "> 	""b"": [1, true]" ++ [10%N] ++ bs "> }" ++ [10%N].
Proof.
  split; [exists [], doc1, []; split; [constructor|split; [apply wfb_wf; reflexivity|split; [constructor|split; [reflexivity|reflexivity]]]]|].
  split; [vm_compute; repeat constructor|]. split; [reflexivity|].
  do 4 (split; [reflexivity|]). split; [split; vm_compute; [discriminate|reflexivity]|]. vm_compute. reflexivity.
Qed.

(** C71: giving a line more room never makes the output longer in lines.  With widths
    below 2^63, whatever the other options are. *)
Theorem C71_wider_partial : forall s t w w' o, reads s t -> height t < 500 -> (w <= w')%N -> (w' < 2 ^ 63)%N ->
  exists a b, opts_pretty (opts_width o w) s = Ok a /\ opts_pretty (opts_width o w') s = Ok b /\ breaks b <= breaks a.
Proof. exact pretty_wider. Qed.
Print Assumptions C71_wider_partial.
Example C71_case : let s := bs "{""b"":[1,2,3]}" in
  reads s (TObj [(bs "b", TArr [TNum (bs "1"); TNum (bs "2"); TNum (bs "3")])]) /\
  match opts_pretty (opts_width opts_new 16) s, opts_pretty (opts_width opts_new 17) s with
  | Ok a, Ok b => breaks a = 7 /\ breaks b = 3
  | _, _ => False
  end.
Proof.
  split; [|vm_compute; split; reflexivity].
  exists [], (CObj [] [Memb [] (bs "b") [] [] (CArr [] [Item [] (CNum (bs "1")) []; Item [] (CNum (bs "2")) []; Item [] (CNum (bs "3")) []]) []]), [].
  split; [constructor|split; [apply wfb_wf; reflexivity|split; [constructor|split; [reflexivity|reflexivity]]]].
Qed.
(** It is false of all widths a usize can hold: usize::MAX breaks what 80 does not. *)
Theorem C71_wider_refuted : exists s t w w' a b, reads s t /\ height t < 500 /\ (w <= w')%N /\ (w' < 2 ^ 64)%N /\
  opts_pretty (opts_width opts_new w) s = Ok a /\ opts_pretty (opts_width opts_new w') s = Ok b /\ breaks a < breaks b.
Proof.
  exists (bs "[1,2]"), (TArr [TNum (bs "1"); TNum (bs "2")]), 80%N, (2 ^ 64 - 1)%N. eexists. eexists.
  split; [exists [], (CArr [] [Item [] (CNum (bs "1")) []; Item [] (CNum (bs "2")) []]), [];
          split; [constructor|split; [apply wfb_wf; reflexivity|split; [constructor|split; [reflexivity|reflexivity]]]]|].
  split; [vm_compute; repeat constructor|]. split; [discriminate|]. split; [reflexivity|].
  split; [vm_compute; reflexivity|]. split; [vm_compute; reflexivity|]. vm_compute. repeat constructor.
Qed.
Print Assumptions C71_wider_refuted.

(** Property C57: the exact meaning of dotted paths. *)
From Coq Require Import String List.
From Verif Require Import M_Base M_Util M_Value M_Path M_Get S_Json S_Str S_Get S_Path S_Query S_Follow S_Mod S_Eval S_Panic
  P_Wf P_Total P_Eval.
Import ListNotations.
Open Scope list_scope.

(** C57: on every valid document a dotted path of names, patterns, indexes, hashes and
    queries finds exactly what [result] says. *)
Theorem C57_eval : forall matches index holds ss c w1 w2,
  meaning matches index holds ss -> steps_ok ss -> ss <> [] -> ws w1 -> ws w2 -> wf c ->
  answers (w1 ++ render c ++ w2) (dotted (map step_text ss)) (result matches index holds ss c).
Proof. intros matches index holds ss c w1 w2 Hm Hok Hne H1 _ Hc. exact (get_result matches index holds ss c w1 w2 Hm Hok Hne H1 Hc). Qed.
Print Assumptions C57_eval.

(** The three parameters exist for every such path, except where a query can panic (C08). *)
Theorem C57_meaning : forall ss, Forall step_ok ss -> ~ tilde_after_pretty (dotted (map step_text ss)) ->
  exists matches index holds, meaning matches index holds ss.
Proof. intros ss Hok Hp. exists match0, index0, holds0. exact (meaning0 ss Hok Hp). Qed.
Print Assumptions C57_meaning.

(** The cases.  [ev] applies the theorem to a text, with parameters that compute. *)
Definition mb (k : string) (v : cst) : memb cst := Memb [] (bs k) [] [] v [].
Definition it (v : cst) : item cst := Item [] v [].
Definition nm (k : string) : step := Name (bs k).
Lemma ev ss c r : forallb simple_step ss && apartb ss = true -> ss <> [] -> wfb c = true ->
  result match0 index0 holds0 ss c = r -> answers (render c) (dotted (map step_text ss)) r.
Proof.
  intros Hok Hne Hc <-. destruct (simple_steps ss Hok) as [Hs Hb].
  pose proof (C57_eval match0 index0 holds0 ss c [] [] (meaning0 ss (proj1 Hs) (safe_calm _ (safe_no_escape _ Hb))) Hs Hne
    ltac:(constructor) ltac:(constructor) (wfb_wf c Hc)) as H. cbn [app] in H. rewrite app_nil_r in H. exact H.
Qed.
Ltac ev := apply ev; [vm_compute; reflexivity | discriminate | vm_compute; reflexivity | vm_compute; reflexivity].

(** Names, patterns, an index, a hash: [a.*b.1.#] in [{"a":{"x":7,"xb":[3,[4,5]]}}]. *)
Example C57_case : answers (render (CObj [] [mb "a" (CObj [] [mb "x" (CNum (bs "7"));
    mb "xb" (CArr [] [it (CNum (bs "3")); it (CArr [] [it (CNum (bs "4")); it (CNum (bs "5"))])])])]))
  (dotted (map step_text [nm "a"; nm "*b"; nm "1"; Hash])) (Some (CNum (bs "2"))).
Proof. ev. Qed.
(** The search goes on inside the object without the next name:
    [a.b] in [{"a":{"a":{"b":1}}}]. *)
Example C57_case_inside : answers (render (CObj [] [mb "a" (CObj [] [mb "a" (CObj [] [mb "b" (CNum (bs "1"))])])]))
  (dotted (map step_text [nm "a"; nm "b"])) (Some (CNum (bs "1"))).
Proof. ev. Qed.
(** It ends at the brace of that object: [a.b] in [{"a":{"x":1},"a":{"b":2}}]. *)
Example C57_case_brace : answers (render (CObj [] [mb "a" (CObj [] [mb "x" (CNum (bs "1"))]); mb "a" (CObj [] [mb "b" (CNum (bs "2"))])]))
  (dotted (map step_text [nm "a"; nm "b"])) None.
Proof. ev. Qed.
(** But not at the bracket of an array: [a.b] in [{"a":[1],"a":{"b":2}}]. *)
Example C57_case_bracket : answers (render (CObj [] [mb "a" (CArr [] [it (CNum (bs "1"))]); mb "a" (CObj [] [mb "b" (CNum (bs "2"))])]))
  (dotted (map step_text [nm "a"; nm "b"])) (Some (CNum (bs "2"))).
Proof. ev. Qed.
(** A string in the array ends it: [a.b] in [{"a":["s"],"a":{"b":2}}]. *)
Example C57_case_string : answers (render (CObj [] [mb "a" (CArr [] [it (CStr (bs "s"))]); mb "a" (CObj [] [mb "b" (CNum (bs "2"))])]))
  (dotted (map step_text [nm "a"; nm "b"])) None.
Proof. ev. Qed.
(** A scalar as well: [a.b] in [{"a":1,"a":{"b":2}}]. *)
Example C57_case_scalar : answers (render (CObj [] [mb "a" (CNum (bs "1")); mb "a" (CObj [] [mb "b" (CNum (bs "2"))])]))
  (dotted (map step_text [nm "a"; nm "b"])) None.
Proof. ev. Qed.
(** Queries: [f.#(n>1)#.m.#] in [{"f":[{"n":1,"m":[2,3]},{"n":5,"m":[4]}]}]. *)
Example C57_case_query : answers (render (CObj [] [mb "f" (CArr [] [
    it (CObj [] [mb "n" (CNum (bs "1")); mb "m" (CArr [] [it (CNum (bs "2")); it (CNum (bs "3"))])]);
    it (CObj [] [mb "n" (CNum (bs "5")); mb "m" (CArr [] [it (CNum (bs "4"))])])])]))
  (dotted (map step_text [nm "f"; Query (bs "n>1") true; nm "m"; Hash])) (Some (array_of [CNum (bs "1")])).
Proof. ev. Qed.
(** Empty names: [a..b] in [{"a":{"":{"b":1}}}]. *)
Example C57_case_empty : answers (render (CObj [] [mb "a" (CObj [] [mb "" (CObj [] [mb "b" (CNum (bs "1"))])])]))
  (dotted (map step_text [nm "a"; nm ""; nm "b"])) (Some (CNum (bs "1"))).
Proof. ev. Qed.
(** The empty path is one empty name. *)
Example C57_case_end : answers (render (CObj [] [mb "" (CNum (bs "1"))])) [] (Some (CNum (bs "1"))).
Proof. exact (ev [nm ""] (CObj [] [mb "" (CNum (bs "1"))]) _ eq_refl ltac:(discriminate) eq_refl eq_refl). Qed.

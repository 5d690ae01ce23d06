(** Property C60: text behind the document, and documents that are cut off or damaged
    behind the value looked for. *)
From Coq Require Import String List.
From Verif Require Import M_Base M_Util M_Value M_Path M_Get S_Json S_Str S_Get S_Path S_Query S_Follow S_Mod S_Eval S_Open
  P_Wf P_Total P_Eval P_Open.
Import ListNotations.
Open Scope list_scope.

(** C60: nothing that follows a document has an influence on what a dotted path finds. *)
Theorem C60_after : forall matches index holds ss c w r,
  meaning matches index holds ss -> steps_ok ss -> ss <> [] -> ws w -> wf c ->
  answers (w ++ render c ++ r) (dotted (map step_text ss)) (result matches index holds ss c).
Proof. intros matches index holds ss c w r. exact (get_result matches index holds ss c w r). Qed.
Print Assumptions C60_after.

(** C60: a value is found no matter how the document goes on behind it. *)
Theorem C60_found : forall matches index holds ss t v w r,
  meaning matches index holds ss -> steps_ok ss -> ss <> [] -> ws w ->
  leads matches index holds ss t v -> delimited r ->
  gets (w ++ t ++ r) (dotted (map step_text ss)) v.
Proof. exact get_damaged. Qed.
Print Assumptions C60_found.

Definition mb (k : string) (v : cst) : memb cst := Memb [] (bs k) [] [] v [].
Definition it (v : cst) : item cst := Item [] v [].
Definition nm (k : string) : step := Name (bs k).
Ltac wf_bool := apply wfb_wf; vm_compute; reflexivity.

(** [a.b] in [{"a":{"b":[1]}}] followed by [}{"a":2]. *)
Example C60_case_after :
  answers (bs "{""a"":{""b"":[1]}}}{""a"":2") (bs "a.b") (Some (CArr [] [it (CNum (bs "1"))])).
Proof.
  destruct (simple_steps [nm "a"; nm "b"] ltac:(vm_compute; reflexivity)) as [Hs Hb].
  exact (C60_after match0 index0 holds0 [nm "a"; nm "b"] (CObj [] [mb "a" (CObj [] [mb "b" (CArr [] [it (CNum (bs "1"))])])])
    [] (bs "}{""a"":2") (meaning0 _ (proj1 Hs) (safe_calm _ (safe_no_escape _ Hb))) Hs ltac:(discriminate) ltac:(constructor) ltac:(wf_bool)).
Qed.

(** [a.b.1.c] in [{"a":{"x":1,"b":[1,{"c":2},] with the rest damaged. *)
Example C60_case_found :
  gets (bs "{""a"":{""x"":1,""b"":[1,{""c"":2},]:""zz") (bs "a.b.1.c") (CNum (bs "2")).
Proof.
  pose (ss := [nm "a"; nm "b"; nm "1"; nm "c"]).
  destruct (simple_steps ss ltac:(vm_compute; reflexivity)) as [Hs Hb].
  apply (C60_found match0 index0 holds0 ss
    (obj_open [] [] [] (bs "a") [] [] ++ obj_open [] [mb "x" (CNum (bs "1"))] [] (bs "b") [] [] ++
     arr_open [] [it (CNum (bs "1"))] [] ++ render (CObj [] [mb "c" (CNum (bs "2"))]))
    (CNum (bs "2")) [] (bs ",]:""zz") (meaning0 _ (proj1 Hs) (safe_calm _ (safe_no_escape _ Hb))) Hs ltac:(discriminate) ltac:(constructor)).
  - assert (Hc : forall k, charsb (bs k) = true -> chars (bs k)) by (intros k; apply (charsb_ok (S (length (bs k)))); constructor).
    apply ld_member; try (constructor; fail); try (apply Hc; reflexivity); try reflexivity.
    apply ld_member; try (constructor; fail); try (apply Hc; reflexivity); try reflexivity.
    + assert (H : wf (CObj [] [mb "x" (CNum (bs "1"))])) by wf_bool. inversion H; auto.
    + constructor; [vm_compute; reflexivity | constructor].
    + apply ld_elem; try (constructor; fail); try (vm_compute; reflexivity); try wf_bool.
      assert (H : wf (CArr [] [it (CNum (bs "1"))])) by wf_bool. inversion H; auto.
  - right. left. reflexivity.
Qed.

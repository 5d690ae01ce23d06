(** Property C69: every path has a meaning.  S_Means says how the bytes of a path are read,
    and by which rules the pieces make one text of another: [means p s r] says that the
    path [p] makes [r] of [s].  The empty text stands for a result that does not exist. *)
From Coq Require Import String List Bool.
From Verif Require Import M_Base M_Value M_Get M_Valid S_Json S_Path S_Layout S_Tree S_Mod S_Same S_Taken S_Means P_Json P_GetDoc P_Wf P_Rel P_First P_Means.
Import ListNotations.
Open Scope list_scope.

(** Every text, whatever its bytes are, has exactly one first piece, and exactly one part
    that stands before the first pipe. *)
Theorem C69_piece : forall p, exists k o, first p k o /\ forall k' o', first p k' o' -> k' = k /\ o' = o.
Proof.
  intros p. destruct (first_total p) as (k & o & H). exists k, o. split; [exact H|]. intros k' o' H'. exact (first_unique _ _ _ _ _ H' H).
Qed.
Print Assumptions C69_piece.
Theorem C69_group : forall p, exists g r, grouped p g r /\ forall g' r', grouped p g' r' -> g' = g /\ r' = r.
Proof.
  intros p. destruct (grouped_total p) as (g & r & H). exists g, r. split; [exact H|]. intros g' r' H'. exact (grouped_unique _ _ _ _ _ H' H).
Qed.
Print Assumptions C69_group.

(** What the rules say is what [get] finds, so the rules never contradict each other. *)
Theorem C69_sound : forall p s r, means p s r -> exists v, get s p = Ok v /\ v_json v = r.
Proof. exact means_get. Qed.
Print Assumptions C69_sound.
Theorem C69_unique : forall p s r r', means p s r -> means p s r' -> r = r'.
Proof. exact means_unique. Qed.
Print Assumptions C69_unique.

(** The rules cover every valid document and every path, however malformed, except that
    the path must not contain three dots in a row, nor the modifiers whose result need not
    be valid (compare C55). *)
Theorem C69_total : forall json p, json = [] \/ valid json = Ok true ->
  ~ contains p (bs "@join:") -> ~ contains p (bs "@pretty:") -> ~ contains p (bs "...") -> ~ contains p (bs "@flatten") ->
  exists r, means p json r /\ (r = [] \/ valid r = Ok true) /\ exists v, get json p = Ok v /\ v_json v = r.
Proof. exact means_total_valid. Qed.
Print Assumptions C69_total.
(** With [@flatten], if no array of the document has only blanks between its brackets. *)
Theorem C69_total_flatten : forall w1 c w2 p, ws w1 -> wf c -> ws w2 -> tight c = true ->
  ~ contains p (bs "@join:") -> ~ contains p (bs "@pretty:") -> ~ contains p (bs "...") ->
  exists r, means p (w1 ++ render c ++ w2) r /\ (r = [] \/ valid r = Ok true) /\
    exists v, get (w1 ++ render c ++ w2) p = Ok v /\ v_json v = r.
Proof. exact means_total_tight. Qed.
Print Assumptions C69_total_flatten.
(** JSON lines. *)
Theorem C69_total_lines : forall ls p, Forall wf_item ls -> spaced ls -> array_path p ->
  ~ contains p (bs "@join:") -> ~ contains p (bs "@pretty:") -> ~ contains p (bs "...") -> ~ contains p (bs "@flatten") ->
  exists r, means (bs ".." ++ p) (lines_text ls) r /\ (r = [] \/ valid r = Ok true) /\
    exists v, get (lines_text ls) (bs ".." ++ p) = Ok v /\ v_json v = r.
Proof. exact means_total_lines. Qed.
Print Assumptions C69_total_lines.

(** Odd paths in one document: text behind a closing bracket hides the pipe; a quoted
    name keeps its quotes; a query that is not closed; JSON lines in the middle of a path;
    brackets of two kinds; a modifier behind the two dots. *)
Definition odd_doc : list N := bs "{""a"":[{""b"":1,""c"":""x""},{""b"":2},{""b"":3}],""k"":null} ".
Lemma odd p r : containsb p (bs "@join:") || containsb p (bs "@pretty:") || containsb p (bs "...") || containsb p (bs "@flatten") = false ->
  (exists v, get odd_doc p = Ok v /\ v_json v = r) -> means p odd_doc r.
Proof.
  intros H (v & E & Hv). apply orb_false_iff in H as [H H4]. apply orb_false_iff in H as [H H3]. apply orb_false_iff in H as [H1 H2].
  assert (Hd : odd_doc = [] \/ valid odd_doc = Ok true) by (right; vm_compute; reflexivity).
  destruct (C69_total odd_doc p Hd (not_contains _ _ H1) (not_contains _ _ H2) (not_contains _ _ H3) (not_contains _ _ H4))
    as (r' & Hr & _ & v' & E' & Hv').
  rewrite E in E'. injection E' as <-. rewrite <- Hv, Hv'. exact Hr.
Qed.
Ltac odd := apply odd; [reflexivity | eexists; split; vm_compute; reflexivity].
Example C69_case_behind : means (bs "a.#(b>1)#.{b,c}junk|@reverse.0.b") odd_doc (bs "[{""b"":2},{""b"":3}]").
Proof. odd. Qed.
Example C69_case_quotes : means (bs "{a.0.c,""z"":..0.k,a.#.b}}|@ugly") odd_doc (bs "{""c"":""x"",""\""z\"""":null,""b"":[1,2,3]}").
Proof. odd. Qed.
Example C69_case_pipe : means (bs "a.#(b>1)#.{b,c}|@reverse.0.b") odd_doc (bs "3").
Proof. odd. Qed.
Example C69_case_unclosed : means (bs "[a.0.b,k,a.#(b=2") odd_doc [].
Proof. odd. Qed.
Example C69_case_lines : means (bs "[..#,a|..0.0.b,{k]") odd_doc (bs "[1,1]").
Proof. odd. Qed.
Example C69_case_nowhere : means (bs "..@this.[k,.a]") odd_doc (bs "[]").
Proof. odd. Qed.
Example C69_case_sound : exists v, get odd_doc (bs "a.#(b>1)#.{b,c}junk|@reverse.0.b") = Ok v /\ v_json v = bs "[{""b"":2},{""b"":3}]".
Proof. exact (C69_sound _ _ _ C69_case_behind). Qed.
Example C69_case_unique : forall r, means (bs "[..#,a|..0.0.b,{k]") odd_doc r -> r = bs "[1,1]".
Proof. intros r H. exact (C69_unique _ _ _ _ H C69_case_lines). Qed.
Example C69_flatten_case : tight (CArr [] [Item [] (CArr [] [Item [32%N] CTrue []]) []; Item [] CNull []]) = true /\
  exists r, means (bs "@flatten|@reverse.0") (bs "[[ true],null]") r /\ r = bs "null".
Proof.
  split; [reflexivity|].
  destruct (C69_total_flatten [] (CArr [] [Item [] (CArr [] [Item [32%N] CTrue []]) []; Item [] CNull []]) [] (bs "@flatten|@reverse.0")) as (r & Hr & _ & v & E & Hv).
  1, 3: constructor.
  1: apply wfb_wf; reflexivity.
  1: reflexivity.
  1-3: apply not_contains; reflexivity.
  exists r. split; [exact Hr|]. vm_compute in E. injection E as <-. rewrite <- Hv. vm_compute. reflexivity.
Qed.
Example C69_lines_case :
  let ls := [Item [] (CObj [] [Memb [] (bs "n") [] [] (CNum (bs "1")) []]) [10%N]; Item [] (CObj [] [Memb [] (bs "n") [] [] (CNum (bs "2")) []]) [10%N]] in
  means (bs "..#(n>1)#.n|@this") (lines_text ls) (bs "[2]").
Proof.
  intros ls. destruct (C69_total_lines ls (bs "#(n>1)#.n|@this")) as (r & Hr & _ & v & E & Hv).
  - apply (wf_items []). apply wfb_wf. reflexivity.
  - cbn. split; [left; discriminate | exact I].
  - cbn. repeat split; discriminate.
  - apply not_contains. reflexivity.
  - apply not_contains. reflexivity.
  - apply not_contains. reflexivity.
  - apply not_contains. reflexivity.
  - vm_compute in E. injection E as <-. rewrite <- Hv in Hr. exact Hr.
Qed.

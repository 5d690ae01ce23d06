(** Property C62: malformed components, those that start with a hash but are neither the
    hash nor a query. *)
From Coq Require Import String List.
From Verif Require Import M_Base M_Util M_Value M_Path M_Valid M_Get S_Json S_Str S_Get S_Path S_Query S_Follow S_Mod S_Eval S_Panic S_Bad
  P_Wf P_Total P_Eval P_Bad.
Import ListNotations.
Open Scope list_scope.

(** A component that starts with a hash is the hash, a query, malformed, or a query
    without its own closing bracket that ends as a query does. *)
Theorem C62_cases : forall t, malformed (0x23%N :: t) \/
  (exists k r, (k = [0x23%N] \/ exists q all, balanced q /\ k = qcomp q all) /\ rest_ok r /\ 0x23%N :: t = k ++ r) \/
  (exists u, t = 0x28%N :: u /\ unclosed u /\ ends_query u).
Proof. exact hash_cases. Qed.
Print Assumptions C62_cases.

(** C62: from a malformed component on the path is read as one empty name, in every
    text and behind every dotted path. *)
Theorem C62_empty_name : forall json ks b, malformed b -> Forall any_comp ks ->
  get json (dotted (ks ++ [b])) = get json (dotted (ks ++ [[]])).
Proof. intros json ks b. exact (get_malformed b ks json). Qed.
Print Assumptions C62_empty_name.

(** On documents. *)
Theorem C62_result : forall matches index holds ss b c w1 w2,
  malformed b -> meaning matches index holds (ss ++ [Name []]) -> steps_ok (ss ++ [Name []]) -> ws w1 -> ws w2 -> wf c ->
  answers (w1 ++ render c ++ w2) (dotted (map step_text ss ++ [b])) (result matches index holds (ss ++ [Name []]) c).
Proof. intros matches index holds ss b c w1 w2 Hb Hm Hok H1 _ Hc. exact (get_malformed_doc matches index holds ss b c w1 w2 Hb Hm Hok H1 Hc). Qed.
Print Assumptions C62_result.

(** "A malformed query never finds anything" is false: it finds the member with the empty name. *)
Theorem C62_anything_refuted : exists json b v, malformed b /\ valid json = Ok true /\ get json b = Ok v /\ v_exists v = true.
Proof.
  exists (bs "{"""":1}"), (bs "#x"). eexists. split; [apply mf_name; [discriminate | unfold separator; intros [H|H]; discriminate]|].
  split; [vm_compute; reflexivity|]. split; [vm_compute; reflexivity | vm_compute; reflexivity].
Qed.
Print Assumptions C62_anything_refuted.
(** It is true of documents without empty names, for paths that select one thing up to
    the malformed component. *)
Theorem C62_nothing : forall ss b c w1 w2,
  malformed b -> Forall single ss -> steps_ok (ss ++ [Name []]) -> ~ tilde_after_pretty (dotted (map step_text ss ++ [b])) ->
  ws w1 -> ws w2 -> wf c -> all_named c ->
  gets_none (w1 ++ render c ++ w2) (dotted (map step_text ss ++ [b])).
Proof. intros ss b c w1 w2 Hb Hs Hok Hp H1 _ Hc Hn. exact (malformed_nothing ss b c w1 w2 Hb Hs Hok Hp H1 Hc Hn). Qed.
Print Assumptions C62_nothing.

Definition mb (k : string) (v : cst) : memb cst := Memb [] (bs k) [] [] v [].
Definition it (v : cst) : item cst := Item [] v [].
Definition nm (k : string) : step := Name (bs k).

(** [#(n>1], [#(n>1]], [#(n>1)x], [#(n>1)#x], [#n] are malformed. *)
Lemma plain_balanced q : forallb (fun c => negb (existsb (N.eqb c) [40; 91; 123; 41; 93; 125; 34; 92]%N)) q = true -> balanced q.
Proof. exact (fun H => proj1 (simple_step_ok (Query q false) H)). Qed.
Example C62_mal : malformed (bs "#(n>1") /\ malformed (bs "#(n>1].a") /\ malformed (bs "#(n>1)x") /\ malformed (bs "#(n>1)#x|y") /\ malformed (bs "#n").
Proof.
  assert (Hq : balanced (bs "n>1")) by (apply plain_balanced; vm_compute; reflexivity).
  split; [|split; [|split; [|split]]].
  - apply (mf_open (bs "n>1")).
    + intros q c r _ Hc E. assert (Hi : In c (bs "n>1")) by (rewrite E; apply in_or_app; right; left; reflexivity).
      destruct Hi as [<-|[<-|[<-|[]]]]; destruct Hc as [H|[H|H]]; discriminate.
    + intros (a & [E|E]); vm_compute in E; do 3 (destruct a as [|? a]; try discriminate; injection E as _ E); destruct a; discriminate.
  - apply (mf_bracket (bs "n>1") 0x5D%N (bs ".a")); auto.
  - apply (mf_junk (bs "n>1") false 0x78%N []); auto; try discriminate. intros [H|H]; discriminate.
  - apply (mf_junk (bs "n>1") true 0x78%N (bs "|y")); auto; try discriminate. intros [H|H]; discriminate.
  - apply (mf_name 0x6E%N []); [discriminate | intros [H|H]; discriminate].
Qed.
(** [a.#(n>1] in [{"a":{"":7}}] is [a.]. *)
Example C62_case : answers (render (CObj [] [mb "a" (CObj [] [mb "" (CNum (bs "7"))])])) (bs "a.#(n>1") (Some (CNum (bs "7"))).
Proof.
  pose (ss := [nm "a"; nm ""]). destruct (simple_steps ss ltac:(vm_compute; reflexivity)) as [Hs Hb].
  exact (C62_result match0 index0 holds0 [nm "a"] (bs "#(n>1") (CObj [] [mb "a" (CObj [] [mb "" (CNum (bs "7"))])]) [] []
    (proj1 C62_mal) (meaning0 ss (proj1 Hs) (safe_calm _ (safe_no_escape _ Hb))) Hs ltac:(constructor) ltac:(constructor)
    ltac:(apply wfb_wf; vm_compute; reflexivity)).
Qed.
(** [a.#(n>1] in [{"a":[{"n":2}]}] finds nothing. *)
Example C62_case_nothing : gets_none (render (CObj [] [mb "a" (CArr [] [it (CObj [] [mb "n" (CNum (bs "2"))])])])) (bs "a.#(n>1").
Proof.
  pose (c := CObj [] [mb "a" (CArr [] [it (CObj [] [mb "n" (CNum (bs "2"))])])]).
  destruct (simple_steps [nm "a"; nm ""] ltac:(vm_compute; reflexivity)) as [Hs Hb].
  pose proof (C62_nothing [nm "a"] (bs "#(n>1") c [] [] (proj1 C62_mal) ltac:(repeat constructor) Hs
    ltac:(apply safe_calm, safe_no_escape; vm_compute; intuition discriminate) ltac:(constructor) ltac:(constructor)
    ltac:(apply wfb_wf; vm_compute; reflexivity) ltac:(vm_compute; repeat split; discriminate)) as H.
  cbn [app] in H. rewrite app_nil_r in H. exact H.
Qed.

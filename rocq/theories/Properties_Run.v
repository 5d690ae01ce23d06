(** Property C61: the meaning of whole paths. *)
From Coq Require Import String List.
From Verif Require Import M_Base M_Util M_Value M_Path M_Get S_Json S_Str S_Get S_Path S_Query S_Follow S_Mod S_ModText S_Join S_Tree S_Layout
  S_Multi S_Compose S_Same S_Eval S_Then S_Run P_Wf P_Total P_Multi P_Eval P_Run.
Import ListNotations.
Open Scope list_scope.

(** C61: a path of components, modifiers and multipaths, chained with pipes and dots,
    makes of a text what the rules of S_Run say.  The value has the text [r] and gives
    every answer that [parse] of [r] gives; it does not exist if [r] is empty. *)
Theorem C61_runs : forall p s r, runs p s r ->
  exists v x, get s p = Ok v /\ parse r = Ok x /\ v_json v = r /\ (r <> [] -> same_answers v x).
Proof. intros p s r H. exact (ht_final s p r (runs_get p s r H)). Qed.
Print Assumptions C61_runs.

(** C61, JSON lines: two dots before the path, and the values of the lines stand in an
    array. *)
Theorem C61_lines : forall p s r, run_lines p s r ->
  exists v x, get s p = Ok v /\ parse r = Ok x /\ v_json v = r /\ (r <> [] -> same_answers v x).
Proof. intros p s r H. exact (ht_final s p r (lines_get p s r H)). Qed.
Print Assumptions C61_lines.

(** The rules leave no choice. *)
Theorem C61_unique : forall p s r r', runs p s r -> runs p s r' -> r = r'.
Proof. exact runs_unique. Qed.
Print Assumptions C61_unique.

(** The cases.  [fd] is the rule for components with parameters that compute. *)
Definition mb (k : string) (v : cst) : memb cst := Memb [] (bs k) [] [] v [].
Definition it (v : cst) : item cst := Item [] v [].
Definition nm (k : string) : step := Name (bs k).
Definition num (n : string) : cst := CNum (bs n).
Lemma fd ss c s p r : forallb simple_step ss && apartb ss = true -> ss <> [] -> wfb c = true -> render c = s -> dotted (map step_text ss) = p ->
  shown (result match0 index0 holds0 ss c) = r -> runs p s r.
Proof.
  intros Hok Hne Hc <- <- <-. destruct (simple_steps ss Hok) as [Hs Hb].
  pose proof (run_find match0 index0 holds0 ss [] c [] (meaning0 ss (proj1 Hs) (safe_calm _ (safe_no_escape _ Hb))) Hs Hne
    ltac:(constructor) (wfb_wf c Hc) ltac:(constructor)) as H. cbn [app] in H. rewrite app_nil_r in H. exact H.
Qed.
Ltac fd ss c := apply (fd ss c); [vm_compute; reflexivity | discriminate | vm_compute; reflexivity | vm_compute; reflexivity | vm_compute; reflexivity | vm_compute; reflexivity].
Lemma rev_rule c s r : wfb c = true -> render c = s -> render (reversed c) = r -> runs (bs "@reverse") s r.
Proof.
  intros Hc <- <-. apply (run_modifier (bs "reverse") None); [|exact I|].
  - repeat constructor; discriminate.
  - pose proof (md_reverse None [] c [] ltac:(constructor) (wfb_wf c Hc) ltac:(constructor)) as H. cbn [app] in H. rewrite app_nil_r in H. exact H.
Qed.
Lemma rev_stage : stage (bs "@reverse").
Proof. apply (st_modifier (bs "reverse") None); [|exact I]. repeat constructor; discriminate. Qed.

(** [{"f":[{"n":1,"m":"a"},{"n":5,"m":"b"},{"n":7,"m":"c"}],"g":2}] *)
Definition row (n m : string) : item cst := it (CObj [] [mb "n" (num n); mb "m" (CStr (bs m))]).
Definition rdoc : cst := CObj [] [mb "f" (CArr [] [row "1" "a"; row "5" "b"; row "7" "c"]); mb "g" (num "2")].

(** [f.#(n>1)#.m|@reverse.0] *)
Example C61_case : runs (bs "f.#(n>1)#.m|@reverse.0") (render rdoc) (bs """c""").
Proof.
  apply (run_pipe (bs "f.#(n>1)#.m") (bs "@reverse.0") _ (bs "[""b"",""c""]")); [fd [nm "f"; Query (bs "n>1") true; nm "m"] rdoc|].
  apply (run_dot (bs "@reverse") (bs "0") _ (bs "[""c"",""b""]")); [exact rev_stage|..].
  - apply (rev_rule (CArr [] [it (CStr (bs "b")); it (CStr (bs "c"))])); vm_compute; reflexivity.
  - fd [nm "0"] (CArr [] [it (CStr (bs "c")); it (CStr (bs "b"))]).
Qed.
(** [{x:f.@reverse.0.n,[f.#,h],g}|@ugly]: an entry that finds nothing is left out. *)
Lemma sp t : forallb (fun c => negb (existsb (N.eqb c) [0x2C; 0x3A; 0x22; 0x5C; 0x5B; 0x5D; 0x7B; 0x7D; 0x28; 0x29]%N)) t = true -> sub_path t.
Proof.
  induction t as [|c t IH]; intros H; [constructor|]. apply andb_prop in H as [H1 H2]. apply P_Multi.sp_plain; auto.
  intros Hs. assert (E : existsb (N.eqb c) [0x2C; 0x3A; 0x22; 0x5C; 0x5B; 0x5D; 0x7B; 0x7D; 0x28; 0x29]%N = true); [|rewrite E in H1; discriminate].
  destruct Hs as [-> | [-> | [-> | [-> | [[-> | [-> | ->]] | [-> | [-> | ->]]]]]]]; reflexivity.
Qed.
Definition rentries : list entry := [(Some (bs "x"), bs "f.@reverse.0.n"); (None, bs "[f.#,h]"); (None, bs "h"); (None, bs "g")].
Lemma rentries_ok : Forall entry_ok rentries /\ Forall2 entry_key rentries [bs "x"; bs "_"; bs "h"; bs "g"].
Proof.
  split.
  - repeat apply Forall_cons; [..|constructor]; (split; cbn [fst snd]; [try exact I; apply (part_name false), sp; reflexivity|]).
    + apply sp. reflexivity.
    + apply (pt_group false 0x5B%N (bs "f.#,h") 0x5D%N []); [right; left; reflexivity | | right; left; reflexivity | constructor].
      repeat (apply bal_char; [intros [H|[H|H]]; discriminate.. | discriminate | discriminate|]). constructor.
    + apply sp. reflexivity.
    + apply sp. reflexivity.
  - repeat apply Forall2_cons; [..|constructor]; [reflexivity | exact (epair_key (None, bs "[f.#,h]")) | exact (epair_key (None, bs "h")) | exact (epair_key (None, bs "g"))].
Qed.
Example C61_case_multi : runs (bs "{x:f.@reverse.0.n,[f.#,h],h,g}") (render rdoc) (bs "{""x"":7,""_"":[3],""g"":2}").
Proof.
  destruct rentries_ok as [He Hk]. apply (run_object rentries (render rdoc) [bs "7"; bs "[3]"; []; bs "2"] [bs "x"; bs "_"; bs "h"; bs "g"] He ltac:(discriminate)); [|exact Hk].
  constructor; [|constructor; [|constructor; [|constructor; [|constructor]]]].
  - apply (run_into [bs "f"] (bs "@reverse.0.n") _ (render (CArr [] [row "1" "a"; row "5" "b"; row "7" "c"]))); [discriminate|..].
    + apply Forall_cons; [|constructor]. left. split; [split; [repeat constructor; discriminate | repeat split; discriminate] | discriminate].
    + exists (bs "@reverse"), (bs ".0.n"). split; [exact rev_stage|]. split; [|reflexivity]. right. exists 0x2E%N, (bs "0.n"). split; [reflexivity | left; reflexivity].
    + fd [nm "f"] rdoc.
    + apply (run_dot (bs "@reverse") (bs "0.n") _ (render (CArr [] [row "7" "c"; row "5" "b"; row "1" "a"]))); [exact rev_stage|..].
      * apply (rev_rule (CArr [] [row "1" "a"; row "5" "b"; row "7" "c"])); vm_compute; reflexivity.
      * fd [nm "0"; nm "n"] (CArr [] [row "7" "c"; row "5" "b"; row "1" "a"]).
  - apply (run_array [(None, bs "f.#"); (None, bs "h")] (render rdoc) [bs "3"; []]).
    + repeat apply Forall_cons; [..|constructor]; (split; cbn [fst snd]; [exact I | apply sp; reflexivity]).
    + discriminate.
    + constructor; [fd [nm "f"; Hash] rdoc|]. constructor; [fd [nm "h"] rdoc | constructor].
  - fd [nm "h"] rdoc.
  - fd [nm "g"] rdoc.
Qed.
(** The text of the document, and what [get] gives. *)
Example C61_case_get : render rdoc = bs "{""f"":[{""n"":1,""m"":""a""},{""n"":5,""m"":""b""},{""n"":7,""m"":""c""}],""g"":2}" /\
  exists v, get (render rdoc) (bs "f.#(n>1)#.m|@reverse.0") = Ok v /\ v_str v = Ok (bs "c").
Proof.
  split; [vm_compute; reflexivity|]. destruct (C61_runs _ _ _ C61_case) as (v & x & E & P & _ & S). exists v. split; [exact E|].
  rewrite (sa_str _ _ (S ltac:(discriminate))). assert (Ok x = parse (bs """c""")) as Ex by auto. vm_compute in Ex. injection Ex as ->. vm_compute. reflexivity.
Qed.
(** Three lines, [..#.n|@reverse]. *)
Example C61_case_lines : run_lines (bs "..#.n|@reverse") (render (CObj [] [mb "n" (num "1")]) ++ [0x0A%N] ++ bs "[2]" ++ [0x0A%N] ++ render (CObj [] [mb "n" (num "3")])) (bs "[3,1]").
Proof.
  pose (ls := [Item [] (CObj [] [mb "n" (num "1")]) [0x0A%N]; Item [] (CArr [] [it (num "2")]) [0x0A%N]; Item [] (CObj [] [mb "n" (num "3")]) []]).
  apply (rl_lines ls (bs "#.n|@reverse")).
  - pose proof (wfb_wf (CArr [] ls) eq_refl) as H. inversion H. assumption.
  - repeat split; left; discriminate.
  - repeat split; discriminate.
  - apply (run_pipe (bs "#.n") (bs "@reverse") _ (bs "[1,3]")); [fd [Hash; nm "n"] (array_of (map i_val ls))|].
    apply (rev_rule (CArr [] [it (num "1"); it (num "3")])); vm_compute; reflexivity.
Qed.
(** [f.#(n>1)#.@reverse]: the members of every match in reverse order. *)
Example C61_case_then : runs (bs "f.#(n>1)#.@reverse") (render rdoc) (bs "[{""m"":""b"",""n"":5},{""m"":""c"",""n"":7}]").
Proof.
  pose (ss := [nm "f"; Query (bs "n>1") true]). destruct (simple_steps ss eq_refl) as [Hs Hb].
  pose proof (run_then match0 index0 holds0 (fun e => render (reversed e)) [] ss (bs "@reverse") [] rdoc []
    (meaning0 ss (proj1 Hs) (safe_calm _ (safe_no_escape _ Hb))) Hs ltac:(discriminate)) as H.
  cbn [app] in H. rewrite app_nil_r in H. apply H.
  - exists (bs "@reverse"), []. split; [exact rev_stage | split; [constructor | reflexivity]].
  - constructor.
  - exact (wfb_wf rdoc eq_refl).
  - constructor.
  - intros e He _. apply (run_modifier (bs "reverse") None); [repeat constructor; discriminate | exact I|].
    pose proof (md_reverse None [] e [] ltac:(constructor) He ltac:(constructor)) as M. cbn [app] in M. rewrite app_nil_r in M. exact M.
  - apply (run_modifier (bs "reverse") None); [repeat constructor; discriminate | exact I|]. apply md_nothing.
Qed.

(** Property C76: how the strings and names of a document are spelled, and how its tokens
    are spaced, makes no difference to what a path finds.
    [content] (S_Said.v) decodes the strings and names of a document; [same_said a b]: two
    texts are the same, or JSON with the same content; [blind p]: in texts that say the same
    the path [p] finds texts that say the same. *)
From Coq Require Import String List NArith.
From Verif Require Import M_Base M_Util M_Num M_Value M_Valid M_Get S_Json S_Str S_Get S_Path S_Query S_Tree S_Mod S_Multi S_Entry S_Eval S_Api S_Taken S_Same
  S_Panic S_Truth S_Compose S_Said P_Wf P_Doc P_Total P_Eval P_Query P_Truth P_Laws P_Multi P_Blind Properties_Truth.
Import ListNotations.
Open Scope list_scope.

(** Names, patterns, indexes, hashes and queries, joined by dots. *)
Theorem C76_path : forall ss, steps_ok ss -> ss <> [] -> ~ tilde_after_pretty (dotted (map step_text ss)) ->
  (forall q al, In (Query q al) ss -> blind_query q) -> blind (dotted (map step_text ss)).
Proof. exact blind_path. Qed.
Print Assumptions C76_path.

(** Comparisons, unless the right-hand side asks for a truth value with a tilde; and
    queries for existence. *)
Theorem C76_compare : forall s0 l s1 o s2 r s3 r1, blank s0 -> lhs l -> blank s1 -> blank s2 -> blank s3 ->
  (l = [] \/ blind l /\ ~ escape_in_pretty l) ->
  trimmed r -> balanced r -> hd 0%N r <> 0x3D%N -> rhs_reads r r1 -> hd 0%N r1 <> 0x7E%N ->
  blind_query (query s0 l s1 o s2 r s3).
Proof. exact blind_compare. Qed.
Print Assumptions C76_compare.
Theorem C76_exists : forall s0 l s1, blank s0 -> lhs l -> blank s1 ->
  (l = [] \/ blind l /\ ~ escape_in_pretty l) -> blind_query (s0 ++ l ++ s1).
Proof. exact blind_exists. Qed.
Print Assumptions C76_exists.

(** Modifiers, except for a shallow flatten. *)
Theorem C76_modifier : forall m,
  In m [bs "@this"; bs "@valid"; bs "@ugly"; bs "@pretty"; bs "@reverse"; bs "@join"; bs "@flatten:{""deep"":true}"] -> blind m.
Proof. exact blind_modifier. Qed.
Print Assumptions C76_modifier.

(** Multipaths. *)
Theorem C76_array : forall q es, balanced q -> entries q es -> ~ tilde_after_pretty (bs "[" ++ q ++ bs "]") ->
  Forall (fun e => tame (snd e) /\ blind (snd e)) es -> blind (bs "[" ++ q ++ bs "]").
Proof. exact blind_array. Qed.
Print Assumptions C76_array.
Theorem C76_object : forall q es, balanced q -> entries q es -> ~ tilde_after_pretty (bs "{" ++ q ++ bs "}") ->
  Forall (fun e => tame (snd e) /\ blind (snd e)) es -> blind (bs "{" ++ q ++ bs "}").
Proof. exact blind_object. Qed.
Print Assumptions C76_object.

(** And all of these one behind the other. *)
Theorem C76_pipe : forall a b, whole a -> blind a -> blind b -> blind (a ++ bs "|" ++ b).
Proof. exact blind_pipe. Qed.
Print Assumptions C76_pipe.

(** What can be seen of values whose texts say the same: they exist alike and have the same
    kind. *)
Theorem C76_kind : forall x x', returned x -> returned x' -> same_said (v_json x) (v_json x') ->
  v_exists x = v_exists x' /\ (v_exists x = true -> v_kind x = v_kind x').
Proof. exact said_values. Qed.
Print Assumptions C76_kind.
(** Values without strings in them do not differ at all. *)
Theorem C76_scalar : forall x x', returned x -> returned x' -> same_said (v_json x) (v_json x') -> v_exists x = true ->
  In (v_kind x) [KNull; KTrue; KFalse; KNumber] -> same_answers x x'.
Proof. exact said_scalar. Qed.
Print Assumptions C76_scalar.
(** Strings are the same, also as numbers. *)
Theorem C76_string : forall x x', returned x -> returned x' -> same_said (v_json x) (v_json x') -> v_exists x = true ->
  v_kind x = KString ->
  v_str x = v_str x' /\ v_f64 x = v_f64 x' /\ v_f32 x = v_f32 x' /\ v_i64 x = v_i64 x' /\ v_u64 x = v_u64 x'.
Proof. exact said_string. Qed.
Print Assumptions C76_string.
(** Arrays have elements, and objects members, that say the same. *)
Theorem C76_elements : forall x x', returned x -> returned x' -> same_said (v_json x) (v_json x') -> v_exists x = true ->
  v_kind x = KArray ->
  exists l l', v_array x = Ok l /\ v_array x' = Ok l' /\ Forall2 (fun a b => same_said (v_json a) (v_json b)) l l'.
Proof. exact said_array. Qed.
Print Assumptions C76_elements.
Theorem C76_members : forall x x', returned x -> returned x' -> same_said (v_json x) (v_json x') -> v_exists x = true ->
  v_kind x = KObject ->
  exists l l', v_each x record_args [] = Ok l /\ v_each x' record_args [] = Ok l' /\
    Forall2 (fun a b => v_str (fst a) = v_str (fst b) /\ same_said (v_json (snd a)) (v_json (snd b))) l l'.
Proof. exact said_object. Qed.
Print Assumptions C76_members.

(** What is left out does notice: bool() of a string, so a query with a tilde, and a
    shallow flatten. *)
Theorem C76_excluded :
  (exists s s' v v', same_said s s' /\ parse s = Ok v /\ parse s' = Ok v' /\ v_bool v = Ok true /\ v_bool v' = Ok false) /\
  ~ blind_query (bs "=~true") /\ ~ blind (bs "@flatten").
Proof.
  assert (S1 : same_said (bs """t""") (bs """\u0074""")).
  { right. exists (TStr (bs "t")). split; [exists (TStr (bs "t"))|exists (TStr (bs "\u0074"))]; (split; [|vm_compute; reflexivity]).
    - exists [], (CStr (bs "t")), []. split; [constructor|]. split; [apply wfb_wf; vm_compute; reflexivity|]. split; [constructor|]. split; reflexivity.
    - exists [], (CStr (bs "\u0074")), []. split; [constructor|]. split; [apply wfb_wf; vm_compute; reflexivity|]. split; [constructor|]. split; reflexivity. }
  assert (S2 : same_said (bs "[[],1]") (bs "[[ ],1]")).
  { right. exists (TArr [TArr []; TNum (bs "1")]). split; exists (TArr [TArr []; TNum (bs "1")]); (split; [|vm_compute; reflexivity]).
    - exists [], (CArr [] [Item [] (CArr [] []) []; Item [] (CNum (bs "1")) []]), []. split; [constructor|]. split; [apply wfb_wf; vm_compute; reflexivity|].
      split; [constructor|]. split; reflexivity.
    - exists [], (CArr [] [Item [] (CArr (bs " ") []) []; Item [] (CNum (bs "1")) []]), []. split; [constructor|]. split; [apply wfb_wf; vm_compute; reflexivity|].
      split; [constructor|]. split; reflexivity. }
  split; [|split].
  - exists (bs """t"""), (bs """\u0074"""). eexists. eexists. split; [exact S1|]. split; [vm_compute; reflexivity|]. split; [vm_compute; reflexivity|].
    split; vm_compute; reflexivity.
  - intros H. assert (Q : q_holds (CStr (bs "\u0074")) (bs "=~true") true).
    { apply (H (CStr (bs "t"))); [apply wfb_wf; vm_compute; reflexivity|apply wfb_wf; vm_compute; reflexivity|vm_compute; reflexivity|].
      eexists. split; vm_compute; reflexivity. }
    destruct Q as (v & E & X). vm_compute in E. injection E as <-. vm_compute in X. discriminate X.
  - intros H. destruct (H _ _ S2) as (v & v' & E & E' & [J|(t & _ & B)]).
    + vm_compute in E, E'. injection E as <-. injection E' as <-. vm_compute in J. discriminate J.
    + destruct B as (u & (w1 & c & w2 & H1 & Hc & H2 & R & _) & _).
      assert (V : valid (v_json v') = Ok true) by (rewrite R; apply P_Tree.valid_render; auto).
      vm_compute in E'. injection E' as <-. vm_compute in V. discriminate V.
Qed.
Print Assumptions C76_excluded.

(** A query for a name, inside a multipath behind a modifier, on two spellings. *)
Definition sp_q : list N := bs "n=""Tom""".
Definition sp_ss : list step := [Name (bs "a"); Query sp_q true; Name (bs "v")].
Definition sp_s : list N := bs "{""a"":[{""n"":""Tom"",""v"":""x/y""},{""n"":""T"",""v"":2}]}".
Definition sp_s' : list N := bs " {""\u0061"" : [ {""n"":""T\u006fm"",""v"": ""x\/y""},{""n"":""T"",""v"":2} ]} ".
Lemma sp_balanced : balanced sp_q.
Proof.
  do 2 (apply bal_char; [unfold bracket_open; vm_compute; intuition discriminate|unfold bracket_close; vm_compute; intuition discriminate|vm_compute; discriminate|vm_compute; discriminate|]).
  apply (bal_string (bs "Tom") []); [|constructor]. repeat (apply qt_char; [vm_compute; discriminate|vm_compute; discriminate|]). constructor.
Qed.
Lemma sp_query : blind_query sp_q.
Proof.
  apply (C76_compare [] (bs "n") [] QEq [] (bs """Tom""") [] (bs "Tom")).
  - constructor.
  - split; [|right; vm_compute; auto]. apply lt_char; [unfold plain_byte, bracket_open, bracket_close; vm_compute; intuition discriminate | unfold op_byte; vm_compute; intuition discriminate | constructor].
  - constructor.
  - constructor.
  - constructor.
  - right. split.
    + apply (C76_path [Name (bs "n")]); [apply simple_steps; vm_compute; reflexivity|discriminate| |intros q al [H|[]]; discriminate H].
      apply calm_plain. vm_compute. intuition discriminate.
    + apply safe_no_escape. vm_compute. intuition discriminate.
  - right. vm_compute. auto.
  - apply (bal_string (bs "Tom") []); [|constructor]. repeat (apply qt_char; [vm_compute; discriminate|vm_compute; discriminate|]). constructor.
  - vm_compute. discriminate.
  - apply (rr_plain (bs "Tom")); [discriminate|vm_compute; intuition discriminate].
  - vm_compute. discriminate.
Qed.
Example C76_case : same_said sp_s sp_s' /\ blind (bs "a.#(n=""Tom"")#.v|@reverse") /\
  exists v v', get sp_s (bs "a.#(n=""Tom"")#.v|@reverse") = Ok v /\ get sp_s' (bs "a.#(n=""Tom"")#.v|@reverse") = Ok v' /\
    v_json v = bs "[""x/y""]" /\ v_json v' = bs "[""x\/y""]".
Proof.
  split; [|split].
  - right. exists (TObj [(bs "a", TArr [TObj [(bs "n", TStr (bs "Tom")); (bs "v", TStr (bs "x/y"))]; TObj [(bs "n", TStr (bs "T")); (bs "v", TNum (bs "2"))]])]).
    split.
    + exists (TObj [(bs "a", TArr [TObj [(bs "n", TStr (bs "Tom")); (bs "v", TStr (bs "x/y"))]; TObj [(bs "n", TStr (bs "T")); (bs "v", TNum (bs "2"))]])]).
      split; [|vm_compute; reflexivity].
      exists [], (CObj [] [Memb [] (bs "a") [] [] (CArr [] [Item [] (CObj [] [Memb [] (bs "n") [] [] (CStr (bs "Tom")) []; Memb [] (bs "v") [] [] (CStr (bs "x/y")) []]) [];
        Item [] (CObj [] [Memb [] (bs "n") [] [] (CStr (bs "T")) []; Memb [] (bs "v") [] [] (CNum (bs "2")) []]) []]) []]), [].
      split; [constructor|]. split; [apply wfb_wf; vm_compute; reflexivity|]. split; [constructor|]. split; vm_compute; reflexivity.
    + exists (TObj [(bs "\u0061", TArr [TObj [(bs "n", TStr (bs "T\u006fm")); (bs "v", TStr (bs "x\/y"))]; TObj [(bs "n", TStr (bs "T")); (bs "v", TNum (bs "2"))]])]).
      split; [|vm_compute; reflexivity].
      exists (bs " "), (CObj [] [Memb [] (bs "\u0061") (bs " ") (bs " ") (CArr [] [Item (bs " ") (CObj [] [Memb [] (bs "n") [] [] (CStr (bs "T\u006fm")) []; Memb [] (bs "v") [] (bs " ") (CStr (bs "x\/y")) []]) [];
        Item [] (CObj [] [Memb [] (bs "n") [] [] (CStr (bs "T")) []; Memb [] (bs "v") [] [] (CNum (bs "2")) []]) (bs " ")]) []]), (bs " ").
      split; [repeat constructor; vm_compute; auto|]. split; [apply wfb_wf; vm_compute; reflexivity|]. split; [repeat constructor; vm_compute; auto|]. split; vm_compute; reflexivity.
  - apply (C76_pipe (bs "a.#(n=""Tom"")#.v") (bs "@reverse")).
    + apply (wh_pieces [bs "a"; bs "#(n=""Tom"")#"; bs "v"]); [discriminate|].
      constructor; [left; left; apply (simple_step_ok (Name (bs "a"))); reflexivity|]. constructor; [|constructor; [|constructor]].
      * left. right. right. exists sp_q, true. split; [exact sp_balanced|reflexivity].
      * left. left. apply (simple_step_ok (Name (bs "v"))). reflexivity.
    + apply (C76_path sp_ss); [|discriminate| |].
      * split; [|apply apartb_ok; reflexivity]. constructor; [apply (simple_step_ok (Name (bs "a"))); reflexivity|].
        constructor; [exact sp_balanced|]. constructor; [apply (simple_step_ok (Name (bs "v"))); reflexivity|constructor].
      * apply calm_plain. vm_compute. intuition discriminate.
      * intros q al [H|[H|[H|[]]]]; try discriminate H. injection H as <- <-. exact sp_query.
    + apply C76_modifier. cbn [In]. auto 8.
  - eexists. eexists. split; [vm_compute; reflexivity|]. split; [vm_compute; reflexivity|]. split; vm_compute; reflexivity.
Qed.
(** Two names in a multipath; the value of one of them is a string with an escape. *)
Lemma blind_name k : simple_step (Name k) = true -> blind k.
Proof.
  intros H. destruct (simple_step_ok _ H) as [H1 H2]. cbn [step_text] in H2.
  apply (C76_path [Name k]); [|discriminate|apply calm_plain, H2|intros q al [E|[]]; discriminate E].
  split; [constructor; [exact H1|constructor]|]. cbn. auto.
Qed.
Example C76_multi : blind (bs "[a,b]") /\ blind (bs "{a,b}") /\ exists v, get sp_s' (bs "{a,b}") = Ok v /\ v_kind v = KObject.
Proof.
  assert (E : entries (bs "a,b") [(None, bs "a"); (None, bs "b")]).
  { assert (K : forall c, c = 97%N \/ c = 98%N -> chunk false [c]).
    { intros c Hc. apply ck_char; [destruct Hc as [-> | ->]; discriminate|destruct Hc as [-> | ->]; discriminate| |intros _; destruct Hc as [-> | ->]; discriminate|constructor].
      unfold bracket_open. destruct Hc as [-> | ->]; vm_compute; intuition discriminate. }
    apply (en_cons (None, bs "a") (bs "b")); [exact I|apply K; auto|]. apply (en_last (None, bs "b")); [exact I|]. left. apply K. auto. }
  assert (F : Forall (fun e : entry => tame (snd e) /\ blind (snd e)) [(None, bs "a"); (None, bs "b")]).
  { constructor; [|constructor; [|constructor]]; cbn [snd]; (split; [|apply blind_name; reflexivity]);
      unfold tame; repeat split; intros (a & b & Q); destruct a as [|? [|]]; discriminate Q. }
  assert (Bq : balanced (bs "a,b")) by (apply plain_balanced; reflexivity).
  split; [|split].
  - apply (C76_array (bs "a,b") _ Bq E); [apply calm_plain; vm_compute; intuition discriminate|exact F].
  - apply (C76_object (bs "a,b") _ Bq E); [apply calm_plain; vm_compute; intuition discriminate|exact F].
  - eexists. split; vm_compute; reflexivity.
Qed.

(** Property C77: the order of the members of objects makes no difference to what a path
    finds, as long as its components select at most one name.
    [shuffled t t'] (S_Shuffle.v): the same content with the members of objects in another
    order; [reordered a b]: two texts are the same, or JSON whose contents are [shuffled];
    [steady p]: in texts that are [reordered] the path [p] finds texts that are. *)
From Coq Require Import String List NArith Permutation.
From Verif Require Import M_Base M_Util M_Num M_Value M_Valid M_Get S_Json S_Str S_Get S_Path S_Query S_Tree S_Mod S_Multi S_Entry S_Eval S_Api S_Taken S_Same
  S_Panic S_Truth S_Compose S_Said S_Shuffle P_Wf P_Doc P_Total P_Eval P_Query P_Truth P_Laws P_Multi P_Blind P_Shuffle P_Steady Properties_Truth.
Import ListNotations.
Open Scope list_scope.

(** Names, indexes, hashes and queries, joined by dots. *)
Theorem C77_path : forall ss, steps_ok ss -> ss <> [] -> ~ tilde_after_pretty (dotted (map step_text ss)) ->
  (forall k, In (Name k) ss -> single k) ->
  (forall q al, In (Query q al) ss -> steady_query q) -> steady (dotted (map step_text ss)).
Proof. exact steady_path. Qed.
Print Assumptions C77_path.
(** A component without wildcards selects at most one name. *)
Theorem C77_single : forall k, Forall (fun c => c <> 0x2A%N /\ c <> 0x3F%N) k -> single k.
Proof. exact single_plain. Qed.
Print Assumptions C77_single.

(** Comparisons, unless the right-hand side asks for a truth value with a tilde; and
    queries for existence. *)
Theorem C77_compare : forall s0 l s1 o s2 r s3 r1, blank s0 -> lhs l -> blank s1 -> blank s2 -> blank s3 ->
  (l = [] \/ steady l /\ ~ escape_in_pretty l) ->
  trimmed r -> balanced r -> hd 0%N r <> 0x3D%N -> rhs_reads r r1 -> hd 0%N r1 <> 0x7E%N ->
  steady_query (query s0 l s1 o s2 r s3).
Proof. exact steady_compare. Qed.
Print Assumptions C77_compare.
Theorem C77_exists : forall s0 l s1, blank s0 -> lhs l -> blank s1 ->
  (l = [] \/ steady l /\ ~ escape_in_pretty l) -> steady_query (s0 ++ l ++ s1).
Proof. exact steady_exists. Qed.
Print Assumptions C77_exists.

(** Modifiers, except for a shallow flatten.  (Of several members with one name @join
    takes the one from the last object.) *)
Theorem C77_modifier : forall m,
  In m [bs "@this"; bs "@valid"; bs "@ugly"; bs "@pretty"; bs "@reverse"; bs "@join"; bs "@flatten:{""deep"":true}"] -> steady m.
Proof. exact steady_modifier. Qed.
Print Assumptions C77_modifier.

(** Multipaths. *)
Theorem C77_array : forall q es, balanced q -> entries q es -> ~ tilde_after_pretty (bs "[" ++ q ++ bs "]") ->
  Forall (fun e => tame (snd e) /\ steady (snd e)) es -> steady (bs "[" ++ q ++ bs "]").
Proof. exact steady_array. Qed.
Print Assumptions C77_array.
Theorem C77_object : forall q es, balanced q -> entries q es -> ~ tilde_after_pretty (bs "{" ++ q ++ bs "}") ->
  Forall (fun e => tame (snd e) /\ steady (snd e)) es -> steady (bs "{" ++ q ++ bs "}").
Proof. exact steady_object. Qed.
Print Assumptions C77_object.

(** And all of these one behind the other. *)
Theorem C77_pipe : forall a b, whole a -> steady a -> steady b -> steady (a ++ bs "|" ++ b).
Proof. exact steady_pipe. Qed.
Print Assumptions C77_pipe.

(** What can be seen of values whose texts are [reordered]: they exist alike and have the
    same kind; what is neither array nor object says the same (then see C76); arrays have
    elements that are [reordered], in the same order; objects have the same members, in
    some order. *)
Theorem C77_kind : forall x x', returned x -> returned x' -> reordered (v_json x) (v_json x') ->
  v_exists x = v_exists x' /\ (v_exists x = true -> v_kind x = v_kind x').
Proof. exact reord_values. Qed.
Print Assumptions C77_kind.
Theorem C77_leaf : forall x x', returned x -> returned x' -> reordered (v_json x) (v_json x') -> v_exists x = true ->
  v_kind x <> KArray -> v_kind x <> KObject -> same_said (v_json x) (v_json x').
Proof. exact reord_leaf. Qed.
Print Assumptions C77_leaf.
Theorem C77_elements : forall x x', returned x -> returned x' -> reordered (v_json x) (v_json x') -> v_exists x = true ->
  v_kind x = KArray ->
  exists l l', v_array x = Ok l /\ v_array x' = Ok l' /\ Forall2 (fun a b => reordered (v_json a) (v_json b)) l l'.
Proof. exact reord_array. Qed.
Print Assumptions C77_elements.
Theorem C77_members : forall x x', returned x -> returned x' -> reordered (v_json x) (v_json x') -> v_exists x = true ->
  v_kind x = KObject ->
  exists l l1 l', v_each x record_args [] = Ok l /\ v_each x' record_args [] = Ok l' /\
    Forall2 (fun a b => v_str (fst a) = v_str (fst b) /\ reordered (v_json (snd a)) (v_json (snd b))) l l1 /\ Permutation l1 l'.
Proof. exact reord_object. Qed.
Print Assumptions C77_members.

Lemma reads1 c : wf c -> says (render c) (content (erase c)).
Proof.
  intros H. exists (erase c). split; [|reflexivity]. exists [], c, []. split; [constructor|]. split; [exact H|]. split; [constructor|].
  split; [cbn [app]; rewrite app_nil_r; reflexivity|reflexivity].
Qed.
Definition ab : cst := CObj [] [Memb [] (bs "a") [] [] (CNum (bs "1")) []; Memb [] (bs "b") [] [] (CNum (bs "2")) []].
Definition ba : cst := CObj [] [Memb [] (bs "b") [] [] (CNum (bs "2")) []; Memb [] (bs "a") [] [] (CNum (bs "1")) []].
Lemma ab_ba : reordered (render ab) (render ba).
Proof.
  right. exists (content (erase ab)), (content (erase ba)). split; [apply reads1, wfb_wf; vm_compute; reflexivity|].
  split; [apply reads1, wfb_wf; vm_compute; reflexivity|].
  apply (sf_order _ [(bs "a", TNum (bs "1")); (bs "b", TNum (bs "2"))]).
  - vm_compute. repeat constructor; vm_compute; intuition discriminate.
  - constructor; [split; [vm_compute; reflexivity|vm_compute; apply sf_same]|]. constructor; [split; [vm_compute; reflexivity|vm_compute; apply sf_same]|]. constructor.
  - vm_compute. apply perm_swap.
Qed.

(** Patterns do notice the order, and so does a name that occurs twice: get() takes the
    first. *)
Theorem C77_excluded : ~ steady (bs "*") /\
  exists v v', get (bs "{""a"":1,""a"":2}") (bs "a") = Ok v /\ get (bs "{""a"":2,""a"":1}") (bs "a") = Ok v' /\ v_json v = bs "1" /\ v_json v' = bs "2".
Proof.
  split.
  - intros H. destruct (H _ _ ab_ba) as (v & v' & E & E' & S).
    pose proof (reord_like v v' (ret_get _ _ _ E) (ret_get _ _ _ E') S) as K.
    vm_compute in E, E'. injection E as <-. injection E' as <-. pose proof (lk_num _ _ K eq_refl eq_refl) as J. vm_compute in J. discriminate J.
  - eexists. eexists. split; [vm_compute; reflexivity|]. split; [vm_compute; reflexivity|]. split; reflexivity.
Qed.
Print Assumptions C77_excluded.

(** A query and a name below it, on two orders (and spellings) of the members. *)
Definition sh_q : list N := bs "n=1".
Definition sh_ss : list step := [Name (bs "a"); Query sh_q true; Name (bs "v")].
Definition sh_c : cst := CObj [] [Memb [] (bs "z") [] [] CNull []; Memb [] (bs "a") [] []
  (CArr [] [Item [] (CObj [] [Memb [] (bs "n") [] [] (CNum (bs "1")) []; Memb [] (bs "v") [] [] ab []]) []]) []].
Definition sh_c' : cst := CObj [] [Memb [] (bs "\u0061") [] []
  (CArr [] [Item [] (CObj [] [Memb (bs " ") (bs "v") [] [] ba []; Memb [] (bs "n") [] [] (CNum (bs "1")) []]) []]) []; Memb [] (bs "z") [] [] CNull []].
Lemma sh_balanced : balanced sh_q.
Proof. apply plain_balanced. reflexivity. Qed.
Lemma sh_query : steady_query sh_q.
Proof.
  apply (C77_compare [] (bs "n") [] QEq [] (bs "1") [] (bs "1")).
  - constructor.
  - split; [|right; vm_compute; auto]. apply lt_char; [unfold plain_byte, bracket_open, bracket_close; vm_compute; intuition discriminate | unfold op_byte; vm_compute; intuition discriminate | constructor].
  - constructor.
  - constructor.
  - constructor.
  - right. split.
    + apply (C77_path [Name (bs "n")]); [apply simple_steps; vm_compute; reflexivity|discriminate| | |intros q al [H|[]]; discriminate H].
      * apply calm_plain. vm_compute. intuition discriminate.
      * intros k [[= <-]|[]]. apply C77_single. repeat constructor; vm_compute; discriminate.
    + apply safe_no_escape. vm_compute. intuition discriminate.
  - right. vm_compute. auto.
  - apply bal_char; [unfold bracket_open; vm_compute; intuition discriminate|unfold bracket_close; vm_compute; intuition discriminate|vm_compute; discriminate|vm_compute; discriminate|constructor].
  - vm_compute. discriminate.
  - apply rr_bare. intros b Hb E. destruct b; [congruence|]. vm_compute in E. discriminate E.
  - vm_compute. discriminate.
Qed.
Example C77_case : reordered (render sh_c) (render sh_c') /\ steady (bs "a.#(n=1)#.v|@reverse") /\
  exists v v', get (render sh_c) (bs "a.#(n=1)#.v|@reverse") = Ok v /\ get (render sh_c') (bs "a.#(n=1)#.v|@reverse") = Ok v' /\
    v_json v = bs "[{""a"":1,""b"":2}]" /\ v_json v' = bs "[{""b"":2,""a"":1}]".
Proof.
  split; [|split].
  - right. exists (content (erase sh_c)), (content (erase sh_c')). split; [apply reads1, wfb_wf; vm_compute; reflexivity|].
    split; [apply reads1, wfb_wf; vm_compute; reflexivity|].
    assert (A : shuffled (content (erase ab)) (content (erase ba))).
    { apply (sf_order _ [(bs "a", TNum (bs "1")); (bs "b", TNum (bs "2"))]).
      - vm_compute. repeat constructor; vm_compute; intuition discriminate.
      - constructor; [split; [vm_compute; reflexivity|vm_compute; apply sf_same]|]. constructor; [split; [vm_compute; reflexivity|vm_compute; apply sf_same]|]. constructor.
      - vm_compute. apply perm_swap. }
    assert (B : shuffled (TObj [(bs "n", TNum (bs "1")); (bs "v", content (erase ab))]) (TObj [(bs "v", content (erase ba)); (bs "n", TNum (bs "1"))])).
    { apply (sf_order _ [(bs "n", TNum (bs "1")); (bs "v", content (erase ba))]).
      - vm_compute. repeat constructor; vm_compute; intuition discriminate.
      - constructor; [split; [reflexivity|apply sf_same]|]. constructor; [split; [reflexivity|exact A]|]. constructor.
      - apply perm_swap. }
    assert (C : shuffled (TObj [(bs "z", TNull); (bs "a", TArr [TObj [(bs "n", TNum (bs "1")); (bs "v", content (erase ab))]])])
                         (TObj [(bs "a", TArr [TObj [(bs "v", content (erase ba)); (bs "n", TNum (bs "1"))]]); (bs "z", TNull)])).
    { apply (sf_order _ [(bs "z", TNull); (bs "a", TArr [TObj [(bs "v", content (erase ba)); (bs "n", TNum (bs "1"))]])]).
      - vm_compute. repeat constructor; vm_compute; intuition discriminate.
      - constructor; [split; [reflexivity|apply sf_same]|]. constructor; [split; [reflexivity|]|constructor]. apply sf_arr. constructor; [exact B|constructor].
      - apply perm_swap. }
    vm_compute in C. vm_compute. exact C.
  - apply (C77_pipe (bs "a.#(n=1)#.v") (bs "@reverse")).
    + apply (wh_pieces [bs "a"; bs "#(n=1)#"; bs "v"]); [discriminate|]. 
      constructor; [left; left; apply (simple_step_ok (Name (bs "a"))); reflexivity|]. constructor; [|constructor; [|constructor]].
      * left. right. right. exists sh_q, true. split; [exact sh_balanced|reflexivity].
      * left. left. apply (simple_step_ok (Name (bs "v"))). reflexivity.
    + apply (C77_path sh_ss); [|discriminate| | |].
      * split; [|apply apartb_ok; reflexivity]. constructor; [apply (simple_step_ok (Name (bs "a"))); reflexivity|].
        constructor; [exact sh_balanced|]. constructor; [apply (simple_step_ok (Name (bs "v"))); reflexivity|constructor].
      * apply calm_plain. vm_compute. intuition discriminate.
      * intros k [[= <-]|[H|[[= <-]|[]]]]; [|discriminate H|]; apply C77_single; repeat constructor; vm_compute; discriminate.
      * intros q al [H|[[= <- <-]|[H|[]]]]; try discriminate H. exact sh_query.
    + apply C77_modifier. vm_compute. tauto.
  - eexists. eexists. split; [vm_compute; reflexivity|]. split; [vm_compute; reflexivity|]. split; vm_compute; reflexivity.
Qed.
(** Multipaths of names. *)
Lemma steady_name k : simple_step (Name k) = true -> Forall (fun c => c <> 0x2A%N /\ c <> 0x3F%N) k -> steady k.
Proof.
  intros H Hk. destruct (simple_step_ok _ H) as [H1 H2]. cbn [step_text] in H2.
  apply (C77_path [Name k]); [|discriminate|apply calm_plain, H2| |intros q al [E|[]]; discriminate E].
  - split; [constructor; [exact H1|constructor]|]. cbn. auto.
  - intros j [[= <-]|[]]. apply C77_single, Hk.
Qed.
Example C77_multi : steady (bs "[a,b]") /\ steady (bs "{a,b}") /\ exists v, get (render ba) (bs "{a,b}") = Ok v /\ v_json v = bs "{""a"":1,""b"":2}".
Proof.
  assert (E : entries (bs "a,b") [(None, bs "a"); (None, bs "b")]).
  { assert (K : forall c, c = 97%N \/ c = 98%N -> chunk false [c]).
    { intros c Hc. apply ck_char; [destruct Hc as [-> | ->]; discriminate|destruct Hc as [-> | ->]; discriminate| |intros _; destruct Hc as [-> | ->]; discriminate|constructor].
      unfold bracket_open. destruct Hc as [-> | ->]; vm_compute; intuition discriminate. }
    apply (en_cons (None, bs "a") (bs "b")); [exact I|apply K; auto|]. apply (en_last (None, bs "b")); [exact I|]. left. apply K. auto. }
  assert (F : Forall (fun e : entry => tame (snd e) /\ steady (snd e)) [(None, bs "a"); (None, bs "b")]).
  { constructor; [|constructor; [|constructor]]; cbn [snd]; (split; [|apply steady_name; [reflexivity|repeat constructor; vm_compute; discriminate]]);
      unfold tame; repeat split; intros (a & b & Q); destruct a as [|? [|]]; discriminate Q. }
  assert (Bq : balanced (bs "a,b")) by (apply plain_balanced; reflexivity).
  split; [|split].
  - apply (C77_array (bs "a,b") _ Bq E); [apply calm_plain; vm_compute; intuition discriminate|exact F].
  - apply (C77_object (bs "a,b") _ Bq E); [apply calm_plain; vm_compute; intuition discriminate|exact F].
  - eexists. split; vm_compute; reflexivity.
Qed.

(** Property C73: laws of the modifiers.  [alike s p q] (S_Laws): on the document [s] the
    paths p and q give the same value, to all accessors, and so do p and q with the same
    further path behind them. *)
From Coq Require Import String List NArith.
From Verif Require Import M_Base M_Util M_Value M_Valid M_Get S_Json S_Taken S_Same S_Mod S_Path S_Compose S_Laws P_Laws P_Compose P_Mixed P_Rel P_ModDoc.
Import ListNotations.
Open Scope list_scope.

(** C73: doing it twice is doing it once. *)
Theorem C73_idempotent : forall s m, valid s = Ok true ->
  In m [bs "@this"; bs "@valid"; bs "@ugly"; bs "@pretty"; bs "@join"; bs "@flatten:{""deep"":true}"] ->
  alike s (m ++ bs "|" ++ m) m.
Proof. exact law_idem. Qed.
Print Assumptions C73_idempotent.

(** What comes before [@ugly] or [@pretty] does not matter, if it keeps the tokens. *)
Theorem C73_last : forall s m n, valid s = Ok true ->
  In m [bs "@this"; bs "@valid"; bs "@ugly"; bs "@pretty"] -> In n [bs "@ugly"; bs "@pretty"] ->
  alike s (m ++ bs "|" ++ n) n.
Proof. exact law_neat. Qed.
Print Assumptions C73_last.

(** Also with a lookup between the two. *)
Theorem C73_around : forall s m p n, valid s = Ok true ->
  In m [bs "@this"; bs "@valid"; bs "@ugly"; bs "@pretty"] -> tame p -> whole p -> In n [bs "@ugly"; bs "@pretty"] ->
  alike s (m ++ bs "|" ++ p ++ bs "|" ++ n) (p ++ bs "|" ++ n).
Proof. exact law_first. Qed.
Print Assumptions C73_around.

(** Reversing twice undoes it, up to whitespace; three times is once, exactly. *)
Theorem C73_reverse : forall s, valid s = Ok true ->
  alike s (bs "@reverse|@reverse|@reverse") (bs "@reverse").
Proof. exact law_reverse. Qed.
Print Assumptions C73_reverse.
Theorem C73_reverse_twice : forall s n, valid s = Ok true -> In n [bs "@ugly"; bs "@pretty"] ->
  alike s (bs "@reverse|@reverse|" ++ n) n.
Proof. exact law_reverse_neat. Qed.
Print Assumptions C73_reverse_twice.
(** Twice is not nothing: whitespace is gone. *)
Theorem C73_reverse_space : exists s, valid s = Ok true /\ ~ alike s (bs "@reverse|@reverse") (bs "@this").
Proof.
  exists (bs "[ 1 ]"). split; [vm_compute; reflexivity|]. intros H. specialize (H [] (or_introl eq_refl)).
  vm_compute in H. destruct H as [_ J]. discriminate J.
Qed.
Print Assumptions C73_reverse_space.
(** A document with whitespace and a lookup that rearranges it. *)
Definition lp : list N := bs "a.#.b|@reverse".
Definition ldoc : list N := bs "{""a"": [ {""b"":[ 1]}, {""b"" : 2} ] }".
Example C73_case : valid ldoc = Ok true /\ tame lp /\ whole lp /\
  (exists v, get ldoc (bs "@pretty|" ++ lp ++ bs "|@ugly.1") = Ok v /\ v_json v = bs "[1]") /\
  (exists v, get ldoc (lp ++ bs "|@ugly.1") = Ok v /\ v_json v = bs "[1]").
Proof.
  split; [vm_compute; reflexivity|]. split; [unfold tame; repeat split; apply not_contains; vm_compute; reflexivity|].
  split; [|split; eexists; (split; vm_compute; reflexivity)].
  apply (wh_pipe [bs "a"; bs "#"; bs "b"] (bs "@reverse")); [discriminate| |].
  - assert (A : one_comp (bs "a")) by (left; split; [split; [repeat constructor; discriminate | repeat split; discriminate] | discriminate]).
    assert (B : one_comp (bs "b")) by (left; split; [split; [repeat constructor; discriminate | repeat split; discriminate] | discriminate]).
    apply Forall_cons; [left; exact (one_any _ A)|]. apply Forall_cons; [left; right; left; reflexivity|].
    apply Forall_cons; [left; exact (one_any _ B)|]. constructor.
  - apply whole_piece. right. apply (stage_simple (bs "reverse")). reflexivity.
Qed.

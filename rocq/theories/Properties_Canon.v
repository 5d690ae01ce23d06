(** Property C84: what is printed tells which document it was.  [reads s t] (S_Tree) says
    that [s] is a JSON text with the tokens [t], [alike t t'] (S_Canon) that two token
    trees are the same but for the order of members with different names. *)
From Coq Require Import String List Permutation.
From Verif Require Import M_Base S_Json S_Tree S_Layout S_Sloppy S_Canon M_Valid M_Pretty P_Canon.
Import ListNotations.
Open Scope list_scope.

(** Without sorting, two documents are printed the same if and only if their tokens are
    the same. *)
Theorem C84_unsorted : forall s s' t t' o, reads s t -> reads s' t' ->
  ws (o_prefix o) -> ws (o_indent o) -> o_sort o = false ->
  (pretty_options s o = pretty_options s' o <-> t = t').
Proof. exact printed_same. Qed.
Print Assumptions C84_unsorted.

(** With sorting, if and only if they are the same but for the order of members. *)
Theorem C84_sorted : forall s s' t t' o, reads s t -> reads s' t' -> height t < 500 -> height t' < 500 ->
  ws (o_prefix o) -> ws (o_indent o) -> o_sort o = true ->
  (pretty_options s o = pretty_options s' o <-> alike t t').
Proof. exact printed_alike. Qed.
Print Assumptions C84_sorted.

(** For objects without a repeated name every order counts as the same. *)
Theorem C84_order : forall ms ms' : list (list N * tree), NoDup (map fst ms) -> Permutation ms ms' -> alike (TObj ms) (TObj ms').
Proof. exact permuted_alike. Qed.
Print Assumptions C84_order.

(** Texts that are not JSON: those taken for such documents are printed the same, with
    any prefix and indentation. *)
Theorem C84_sloppy : forall s s' t t' r r' o, sloppy s t r -> sloppy s' t' r' -> alike t t' ->
  height t < 500 -> height t' < 500 -> o_sort o = true -> pretty_options s o = pretty_options s' o.
Proof. exact alike_printed. Qed.
Print Assumptions C84_sloppy.

(** Printing sorted what was printed sorted changes nothing. *)
Theorem C84_again : forall s t o, reads s t -> height t < 500 -> ws (o_prefix o) -> ws (o_indent o) -> o_sort o = true ->
  exists out, pretty_options s o = Ok out /\ pretty_options out o = Ok out.
Proof. exact sorted_again. Qed.
Print Assumptions C84_again.

(** A text has one reading only. *)
Theorem C84_once : forall s t t', reads s t -> reads s t' -> t = t'.
Proof. exact reads_once. Qed.
Print Assumptions C84_once.

(** Two documents that differ in the order of members, one name occurring twice. *)
Definition c84_a : tree := TObj [(bs "b", TNull); (bs "a", TObj [(bs "y", TTrue); (bs "x", TFalse)]); (bs "b", TTrue)].
Definition c84_b : tree := TObj [(bs "a", TObj [(bs "x", TFalse); (bs "y", TTrue)]); (bs "b", TNull); (bs "b", TTrue)].
Definition c84_c : tree := TObj [(bs "a", TObj [(bs "x", TFalse); (bs "y", TTrue)]); (bs "b", TTrue); (bs "b", TNull)].
Lemma c84_reads ms : (forall k v, In (k, v) ms -> k = bs "a" \/ k = bs "b" \/ k = bs "x" \/ k = bs "y") ->
  (forall k v, In (k, v) ms -> reads (minimal v) v) -> reads (minimal (TObj ms)) (TObj ms).
Proof.
  intros Hk Hv.
  assert (C : forall c, In c (bs "abxy") -> chars [c]).
  { intros c H. apply chars_plain; [|constructor]. destruct H as [<-|[<-|[<-|[<-|[]]]]]; vm_compute; repeat split; congruence. }
  exists [], (P_Tree.embed (TObj ms)), []. split; [constructor|]. split; [|split; [constructor|]; split].
  - apply P_Tree.wf_embed. constructor. apply Forall_forall. intros [k v] Hin. cbn [fst snd]. split.
    + destruct (Hk _ _ Hin) as [->|[->|[->| ->]]]; apply C; simpl; auto.
    + destruct (Hv _ _ Hin) as (w1 & c & w2 & _ & Hc & _ & _ & <-). apply P_Tree.wf_erase, Hc.
  - rewrite P_Tree.render_embed, app_nil_r. reflexivity.
  - apply P_Tree.erase_embed.
Qed.
Lemma c84_leaves : reads (minimal TTrue) TTrue /\ reads (minimal TFalse) TFalse /\ reads (minimal TNull) TNull.
Proof.
  split; [|split].
  - exists [], CTrue, []. repeat split; constructor.
  - exists [], CFalse, []. repeat split; constructor.
  - exists [], CNull, []. repeat split; constructor.
Qed.
Ltac c84r := apply c84_reads;
  [ intros k v H; simpl in H; intuition (match goal with E : (_, _) = (k, v) |- _ => injection E as <- <- end; auto)
  | intros k v H; simpl in H; intuition (match goal with E : (_, _) = (k, v) |- _ => injection E as <- <- end; first [apply c84_leaves | c84r]) ].
Definition c84_o : popts := mkOpts 80 [] (bs "  ") true.
Example C84_case : reads (minimal c84_a) c84_a /\ reads (minimal c84_b) c84_b /\ reads (minimal c84_c) c84_c /\
  height c84_a < 500 /\ height c84_b < 500 /\ height c84_c < 500 /\ alike c84_a c84_b /\ ~ alike c84_b c84_c /\
  pretty_options (minimal c84_a) c84_o = pretty_options (minimal c84_b) c84_o.
Proof.
  assert (Ra : reads (minimal c84_a) c84_a) by c84r. assert (Rb : reads (minimal c84_b) c84_b) by c84r.
  assert (Rc : reads (minimal c84_c) c84_c) by c84r.
  assert (Hh : height c84_a < 500 /\ height c84_b < 500 /\ height c84_c < 500) by (repeat split; apply Nat.ltb_lt; reflexivity).
  destruct Hh as (Ha & Hb & Hc). split; [exact Ra|]. split; [exact Rb|]. split; [exact Rc|]. split; [exact Ha|]. split; [exact Hb|]. split; [exact Hc|].
  assert (W : ws []) by constructor. assert (W2 : ws (bs "  ")) by (repeat (constructor; [left; reflexivity|]); constructor).
  assert (E : pretty_options (minimal c84_a) c84_o = pretty_options (minimal c84_b) c84_o) by (vm_compute; reflexivity).
  split; [exact (proj1 (C84_sorted _ _ _ _ c84_o Ra Rb Ha Hb W W2 eq_refl) E)|]. split; [|exact E].
  intros H. apply (proj2 (C84_sorted _ _ _ _ c84_o Rb Rc Hb Hc W W2 eq_refl)) in H. vm_compute in H. discriminate.
Qed.

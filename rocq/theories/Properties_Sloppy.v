(** Property C83: what pretty() makes of texts that are not JSON.  [sloppy s t r]
    (S_Sloppy) says which tokens a text is taken for, [page] (S_Layout) how tokens are
    laid out, [reads s t] (S_Tree) that [s] is a JSON text with the tokens [t]. *)
From Coq Require Import String List.
From Coq Require Import Lia ZifyBool.
From Verif Require Import M_Base S_Json S_Path S_Tree S_Layout S_Sloppy M_Valid M_Pretty P_Sloppy.
Import ListNotations.
Open Scope list_scope.

(** The tokens a text is taken for, and nothing else, decide what is printed. *)
Theorem C83_layout : forall s t r o, sloppy s t r -> height t < 500 ->
  pretty_options s o = Ok (page (o_width o) (o_prefix o) (o_indent o) (o_sort o) t).
Proof. exact sloppy_layout. Qed.
Print Assumptions C83_layout.

(** It is taken for one thing only. *)
Theorem C83_once : forall s t r t' r', sloppy s t r -> sloppy s t' r' -> t = t' /\ r = r'.
Proof. intros s t r t' r' H. exact (proj1 sloppy_once s t r H t' r'). Qed.
Print Assumptions C83_once.

(** A document is taken for its own tokens. *)
Theorem C83_document : forall s t, reads s t -> exists r, ws r /\ sloppy s t r.
Proof. exact reads_sloppy. Qed.
Print Assumptions C83_document.

(** So a text that is not JSON is printed like the document it is taken for. *)
Theorem C83_repaired : forall s s' t r o, sloppy s t r -> reads s' t -> height t < 500 ->
  pretty_options s o = pretty_options s' o.
Proof.
  intros s s' t r o Hs Hr Hh. destruct (reads_sloppy s' t Hr) as (r' & _ & Hs').
  rewrite (sloppy_layout s t r o Hs Hh), (sloppy_layout s' t r' o Hs' Hh). reflexivity.
Qed.
Print Assumptions C83_repaired.

(** Where no value begins nothing is printed but the prefix. *)
Theorem C83_nothing : forall s o, Forall (fun c => ~ begins_value c) s ->
  pretty_options s o = Ok (match o_prefix o with [] => [] | p => p ++ [10%N] end).
Proof. exact nothing_printed. Qed.
Print Assumptions C83_nothing.
Example C83_nothing_case : Forall (fun c => ~ begins_value c) (bs " ] }, : x") /\ pretty (bs " ] }, : x") = Ok [].
Proof.
  split; [|vm_compute; reflexivity].
  let x := eval vm_compute in (bs " ] }, : x") in change (bs " ] }, : x") with x.
  repeat (apply Forall_cons; [unfold begins_value; lia|]). apply Forall_nil.
Qed.

(** Commas and colons missing, doubled or replaced, stray words, and something behind
    the text: none of it makes a difference. *)
Ltac skips := repeat (cbn [bs app quoted]; first
  [ apply sl_junk; [solve [unfold begins_value; lia]|]
  | apply el_blank; [vm_compute; discriminate|]
  | apply mb_junk; [discriminate|discriminate|] ]).
Lemma sl_number_eq s c b r : s = c :: b ++ r -> (0x30 <= c <= 0x39)%N \/ c = 0x2D%N -> Forall (fun d => ~ ends_number d) b ->
  (forall d r', r = d :: r' -> ends_number d) -> sloppy s (TNum (c :: b)) r.
Proof. intros -> ? ? ?. apply sl_number; auto. Qed.
Lemma mb_member_eq s0 k s t s' ms r : s0 = quoted k ++ s -> quotable k -> sloppy s t s' -> members s' ms r ->
  members s0 ((k, t) :: ms) r.
Proof. intros -> ? ? ?. eapply mb_member; eauto. Qed.
Definition doc_bad : list N := bs "; {""a"" 1 ""b"":= [1 2,,3];, ""c"":tru? }, true".
Definition tree_bad : tree :=
  TObj [(bs "a", TNum (bs "1")); (bs "b", TArr [TNum (bs "1"); TNum (bs "2"); TNum (bs "3")]); (bs "c", TTrue)].
Example C83_case : sloppy doc_bad tree_bad (bs ", true") /\ valid doc_bad = Ok false /\
  pretty doc_bad = pretty (bs "{""a"":1,""b"":[1,2,3],""c"":true}").
Proof.
  split; [|split; vm_compute; reflexivity].
  assert (Hn : forall c rest, c = 0x20%N \/ c = 0x2C%N \/ c = 0x5D%N -> forall d r', c :: rest = d :: r' -> ends_number d).
  { intros c rest H d r' E. injection E as <- _. unfold ends_number. destruct H as [->|[->| ->]]; vm_compute; intuition discriminate. }
  assert (Hd : forall c, In c (bs "123") -> (0x30 <= c <= 0x39)%N \/ c = 0x2D%N).
  { intros c [<-|[<-|[<-|[]]]]; left; split; discriminate. }
  assert (Hq : forall c, In c (bs "abc") -> quotable [c]).
  { intros c [<-|[<-|[<-|[]]]]; (apply qt_char; [discriminate | discriminate | apply qt_nil]). }
  let x := eval vm_compute in doc_bad in change doc_bad with x. unfold tree_bad. skips. apply sl_object.
  eapply (mb_member_eq _ (bs "a")); [reflexivity | apply Hq; simpl; auto | skips; eapply (sl_number_eq _ 0x31%N []); [reflexivity | apply Hd; simpl; auto | constructor | apply Hn; auto] |].
  skips. eapply (mb_member_eq _ (bs "b")); [reflexivity | apply Hq; simpl; auto | |].
  { skips. apply sl_array.
    eapply el_value; [reflexivity | discriminate | eapply (sl_number_eq _ 0x31%N []); [reflexivity | apply Hd; simpl; auto | constructor | apply Hn; auto] |].
    skips. eapply el_value; [reflexivity | discriminate | eapply (sl_number_eq _ 0x32%N []); [reflexivity | apply Hd; simpl; auto | constructor | apply Hn; auto] |].
    eapply el_value; [reflexivity | discriminate | skips; eapply (sl_number_eq _ 0x33%N []); [reflexivity | apply Hd; simpl; auto | constructor | apply Hn; auto] |].
    apply el_close. }
  skips. eapply (mb_member_eq _ (bs "c")); [reflexivity | apply Hq; simpl; auto | skips; apply (sl_true (bs "ru?")); left; reflexivity |].
  skips. apply mb_close.
Qed.

(** But a comma in front of the closing bracket announces an element, which is looked
    for behind the bracket. *)
Example C83_trailing_comma :
  pretty (bs "[[1,],2]") = Ok (bs "[[1, 2]" ++ [10%N]) /\
  pretty (bs "{""a"":[1,],""b"":2]}") = Ok (bs "{" ++ [10%N] ++ bs "  ""a"": [1, ""b"", 2]" ++ [10%N] ++ bs "}" ++ [10%N]).
Proof. split; vm_compute; reflexivity. Qed.

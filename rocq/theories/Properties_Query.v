(** Properties C18, C19, C20 and C48: what the comparisons in queries mean.
    [asks c x q o r] (S_Query.v) says that the text [q] is a query [l o r], with
    blanks around the three parts as one likes, whose left-hand side [l] selects the
    value [x] in the piece [c] of the document; [q_holds c q b] says whether [c]
    satisfies it (C16 and C17 say what becomes of that). *)
From Coq Require Import Reals Lra Lia String List.
From Verif Require Import M_Base S_Json S_Str S_Get S_Path S_Query S_Num M_Num M_Util M_Value M_Get P_Wf P_GetDoc P_GetArr P_Query P_QNum P_Num.

Definition qobj : cst :=
  CObj [] [Memb [] (bs "s") [] [] (CStr (92 :: 117 :: bs "0061b")%N) [];
           Memb [] (bs "n") [] [] (CNum (bs "-12.50e1")) [];
           Memb [] (bs "b") [] [] (CTrue) [];
           Memb [] (bs "e") [] [] (CStr []) [];
           Memb [] (bs "t") [] [] (CStr (bs "~x")) [];
           Memb [] (bs "i") [] [] (CNum (bs "9007199254740993")) []].
Example qobj_wf : wf qobj.
Proof. apply wfb_wf. vm_compute. reflexivity. Qed.
(** A left-hand side without special characters, for the examples. *)
Lemma key_asks c x k o r : get (render c) k = Ok x -> k <> [] ->
  Forall (fun b => plain_byte b /\ ~ op_byte b /\ (0x20 < b)%N) k ->
  asks c x (bs " " ++ k ++ op_text o ++ r)%list o r.
Proof.
  intros Hg Hn Hk. exists (bs " "), k, [], [], []. split; [repeat constructor; vm_compute; discriminate|].
  split; [split|]; [| |split; [constructor|split; [constructor|split; [constructor|split]]]].
  - clear Hg Hn. induction Hk as [|b t (H1 & H2 & H3) _ IH]; constructor; auto.
  - right. split.
    + destruct k; [congruence|]. inversion Hk; subst. cbn. tauto.
    + destruct (exists_last Hn) as (l & a & ->). rewrite last_last. apply Forall_app in Hk as [_ Hk]. inversion Hk; tauto.
  - unfold query. rewrite !app_nil_l, app_nil_r. reflexivity.
  - unfold lhs_of. destruct k; [congruence|]. exact Hg.
Qed.
Ltac holds_by := eexists; split; [vm_compute; reflexivity|]; vm_compute; reflexivity.
Ltac asks_key k :=
  match goal with |- asks _ ?x _ ?o ?r => apply (key_asks qobj x k o r) end;
  [vm_compute; reflexivity | discriminate |
   repeat constructor; try (unfold plain_byte, bracket_open, bracket_close, op_byte; cbn; intuition discriminate)].

Lemma digs ds : (negb (beq ds []) && forallb is_digit ds)%bool = true -> digits1 ds.
Proof.
  intros H. apply andb_prop in H as [H1 H2]. split; [destruct ds; discriminate|]. apply Forall_forall. intros c Hc.
  rewrite forallb_forall in H2. apply is_digit_spec, H2, Hc.
Qed.

(** C18: a string is compared by its decoded text with the decoded right-hand side,
    as long as the latter is not empty and does not begin with a tilde ... *)
Theorem C18_string_partial : forall c x q o b s r, wf c -> asks c x q o (quoted b) -> chars b ->
  v_exists x = true -> v_kind x = KString -> v_str x = Ok s -> unescape (quoted b) = Ok r ->
  b <> [] -> hd 0%N r <> 0x7E%N -> is_like o = false ->
  exists t, q_holds c q t /\ (t = true <-> op_rel text_lt o s r).
Proof. exact holds_string. Qed.
Print Assumptions C18_string_partial.
(** ... the pattern operators match its glob, under the conditions of C07 ... *)
Theorem C18_like_partial : forall c x q b s r, wf c -> asks c x q QLike (quoted b) -> chars b ->
  v_exists x = true -> v_kind x = KString -> v_str x = Ok s -> unescape (quoted b) = Ok r ->
  b <> [] -> hd 0%N r <> 0x7E%N ->
  (no_escaped_qm r /\ ascii s) \/ (~ In 0x3F%N r /\ utf8 r /\ utf8 s) ->
  exists t, q_holds c q t /\ (t = true <-> glob utf8_char r s).
Proof. exact holds_like_glob. Qed.
Print Assumptions C18_like_partial.
Theorem C18_not_like_partial : forall c x q b s r, wf c -> asks c x q QNotLike (quoted b) -> chars b ->
  v_exists x = true -> v_kind x = KString -> v_str x = Ok s -> unescape (quoted b) = Ok r ->
  b <> [] -> hd 0%N r <> 0x7E%N ->
  (no_escaped_qm r /\ ascii s) \/ (~ In 0x3F%N r /\ utf8 r /\ utf8 s) ->
  exists t, q_holds c q t /\ (t = true <-> ~ glob utf8_char r s).
Proof. exact holds_not_like_glob. Qed.
Print Assumptions C18_not_like_partial.
(** ... and a right-hand side without quotes is taken literally. *)
Theorem C18_bare_partial : forall c x q o s r, wf c -> asks c x q o r -> bare r ->
  v_exists x = true -> v_kind x = KString -> v_str x = Ok s -> is_like o = false ->
  exists t, q_holds c q t /\ (t = true <-> op_rel text_lt o s r).
Proof. exact holds_string_bare. Qed.
Print Assumptions C18_bare_partial.
Example C18_case : exists x, asks qobj x (bs " s>=""aa""") QGe (quoted (bs "aa")) /\
  v_kind x = KString /\ v_str x = Ok (bs "ab") /\ q_holds qobj (bs " s>=""aa""") true /\ ~ q_holds qobj (bs " s<""aa""") true.
Proof.
  eexists. split; [asks_key (bs "s")|].
  - split; [vm_compute; reflexivity|]. split; [vm_compute; reflexivity|]. split.
    + holds_by.
    + intros (v & Hv & He). vm_compute in Hv. injection Hv as <-. vm_compute in He. discriminate.
Qed.
(** With an empty right-hand side, or one that begins with a tilde, it is wrong:
    #(e="") does not find an empty string, nor #(t="~x") the string ~x. *)
Theorem C18_string_refuted :
  (exists c x q, wf c /\ asks c x q QEq (quoted []) /\ v_kind x = KString /\ v_str x = Ok [] /\ q_holds c q false) /\
  (exists c x q b, wf c /\ asks c x q QEq (quoted b) /\ chars b /\ v_kind x = KString /\ v_str x = Ok b /\
     unescape (quoted b) = Ok b /\ q_holds c q false).
Proof.
  split.
  - exists qobj. eexists. exists (bs " e=""""").
    split; [exact qobj_wf|]. split; [asks_key (bs "e")|]. split; [vm_compute; reflexivity|]. split; [vm_compute; reflexivity|].
    holds_by.
  - exists qobj. eexists. exists (bs " t=""~x"""), (bs "~x").
    split; [exact qobj_wf|]. split; [asks_key (bs "t")|].
    + split; [apply chars_plain; [unfold plain; cbn; lia|]; apply chars_plain; [unfold plain; cbn; lia|]; apply chars_nil|]. split; [vm_compute; reflexivity|]. split; [vm_compute; reflexivity|].
      split; [vm_compute; reflexivity|]. holds_by.
Qed.
Print Assumptions C18_string_refuted.

(** C19: numbers are compared by their nearest binary64 values ... *)
Theorem C19_number_partial : forall c x q o r m e m' e', wf c -> asks c x q o r -> v_exists x = true -> v_kind x = KNumber ->
  denotes (v_json x) m e -> denotes r m' e' -> is_like o = false ->
  exists t, q_holds c q t /\ (t = true <-> op_rel Rlt o (f64_val (num_val m e)) (f64_val (num_val m' e'))).
Proof. exact holds_number. Qed.
Print Assumptions C19_number_partial.
(** (every JSON number denotes something) *)
Theorem C19_denotes : forall n, number n -> exists m e, denotes n m e.
Proof. exact number_denotes. Qed.
Print Assumptions C19_denotes.
(** ... which is exact for integers up to 2^53 ... *)
Theorem C19_int_partial : forall c x q o r z z', wf c -> asks c x q o r -> v_exists x = true -> v_kind x = KNumber ->
  int_literal (v_json x) z -> int_literal r z' -> (Z.abs z <= 2 ^ 53)%Z -> (Z.abs z' <= 2 ^ 53)%Z -> is_like o = false ->
  exists t, q_holds c q t /\ (t = true <-> op_rel Z.lt o z z').
Proof. exact holds_int. Qed.
Print Assumptions C19_int_partial.
(** ... and never contradicts the order of the numbers written. *)
Theorem C19_order_partial : forall c x q o r m e m' e', wf c -> asks c x q o r -> v_exists x = true -> v_kind x = KNumber ->
  denotes (v_json x) m e -> denotes r m' e' ->
  (o = QLe /\ Rle (num_val m e) (num_val m' e') \/ o = QGe /\ Rle (num_val m' e') (num_val m e) \/
   o = QEq /\ num_val m e = num_val m' e') ->
  q_holds c q true.
Proof. exact holds_order. Qed.
Print Assumptions C19_order_partial.
Theorem C19_order_not_partial : forall c x q o r m e m' e', wf c -> asks c x q o r -> v_exists x = true -> v_kind x = KNumber ->
  denotes (v_json x) m e -> denotes r m' e' ->
  (o = QLt /\ Rle (num_val m' e') (num_val m e) \/ o = QGt /\ Rle (num_val m e) (num_val m' e') \/
   o = QNe /\ num_val m e = num_val m' e') ->
  q_holds c q false.
Proof. exact holds_order_not. Qed.
Print Assumptions C19_order_not_partial.
Example C19_case : exists x, asks qobj x (bs " n==-125") QEqEq (bs "-125") /\ v_exists x = true /\ v_kind x = KNumber /\
  denotes (v_json x) (-1250) (-1) /\ denotes (bs "-125") (-125) 0 /\ num_val (-1250) (-1) = num_val (-125) 0 /\
  q_holds qobj (bs " n==-125") true.
Proof.
  eexists. split; [asks_key (bs "n")|].
  - split; [vm_compute; reflexivity|]. split; [vm_compute; reflexivity|].
    split; [apply (den_frac true (bs "12") (bs "50") (bs "e1") 1)|split; [apply (den_int true (bs "125") [] 0)|]].
    1-2: apply digs; vm_compute; reflexivity.
    + apply (ev_plain 0x65%N (bs "1")); auto. apply digs; vm_compute; reflexivity.
    + apply digs; vm_compute; reflexivity.
    + constructor.
    + split; [unfold num_val, powerRZ; change (Pos.to_nat 1) with 1; cbn [pow]; field|]. holds_by.
Qed.
(** Above 2^53 different integers are taken for equal. *)
Theorem C19_number_refuted : exists c x q r z z', wf c /\ asks c x q QEq r /\ v_exists x = true /\ v_kind x = KNumber /\
  int_literal (v_json x) z /\ int_literal r z' /\ z <> z' /\ q_holds c q true.
Proof.
  exists qobj. eexists. exists (bs " i=9007199254740992"), (bs "9007199254740992"), 9007199254740993%Z, 9007199254740992%Z.
  split; [exact qobj_wf|]. split; [asks_key (bs "i")|].
  - split; [vm_compute; reflexivity|]. split; [vm_compute; reflexivity|].
    split; [apply (il_pos (bs "9007199254740993"))|split; [apply (il_pos (bs "9007199254740992"))|]].
    1-2: apply digs; vm_compute; reflexivity.
    split; [discriminate|]. holds_by.
Qed.
Print Assumptions C19_number_refuted.

(** C20: booleans are compared with false < true by =, ==, !=, < and >. *)
Theorem C20_bool : forall c x q o a b, wf c -> asks c x q o (bool_text b) -> v_exists x = true -> v_kind x = bool_kind a ->
  is_like o = false -> o <> QLe -> o <> QGe ->
  exists t, q_holds c q t /\ (t = true <-> op_rel bool_lt o a b).
Proof. exact holds_bool. Qed.
Print Assumptions C20_bool.
(** A query without operator asks for existence. *)
Theorem C20_exists : forall c x q, wf c -> asks_exists c x q -> q_holds c q (v_exists x).
Proof. exact holds_exists_q. Qed.
Print Assumptions C20_exists.
(** Null, arrays, objects and missing values satisfy no comparison. *)
Theorem C20_other : forall c x q o r, wf c -> asks c x q o r -> bare r ->
  v_exists x = false \/ In (v_kind x) [KNull; KArray; KObject] -> q_holds c q false.
Proof. exact holds_other. Qed.
Print Assumptions C20_other.
(** The operators <= and >=, which C20 leaves out, do not even look at the right-hand
    side: false <= anything and anything <= true fails. *)
Theorem C20_bool_le : forall c x q o a b, wf c -> asks c x q o (bool_text b) -> v_exists x = true -> v_kind x = bool_kind a ->
  o = QLe \/ o = QGe -> q_holds c q (match o with QLe => negb a | _ => a end).
Proof. exact holds_bool_le. Qed.
Print Assumptions C20_bool_le.
Example C20_case : exists x, asks qobj x (bs " b>false") QGt (bool_text false) /\ v_kind x = bool_kind true /\
  q_holds qobj (bs " b>false") true /\ q_holds qobj (bs " b<=true") false /\ q_holds qobj (bs "b ") true /\ q_holds qobj (bs "zz") false.
Proof.
  eexists. split; [asks_key (bs "b")|].
  split; [vm_compute; reflexivity|].
  split; [holds_by|]; split; [holds_by|]; try (split; [holds_by|]); holds_by.
Qed.

(** C48: after a tilde the truth value of the selected value counts. *)
Theorem C48_tilde : forall c x q o a b, wf c -> asks c x q o (0x7E%N :: bool_text b) -> v_bool x = Ok a ->
  is_like o = false -> o <> QLe -> o <> QGe ->
  exists t, q_holds c q t /\ (t = true <-> op_rel bool_lt o a b).
Proof. exact holds_tilde. Qed.
Print Assumptions C48_tilde.
Example C48_case : exists x, asks qobj x (bs " zz=~false") QEq (bs "~false") /\ v_bool x = Ok false /\
  q_holds qobj (bs " zz=~false") true /\ q_holds qobj (bs " n=~true") true.
Proof.
  eexists. split; [asks_key (bs "zz")|].
  split; [vm_compute; reflexivity|].
  split; [holds_by|]; holds_by.
Qed.

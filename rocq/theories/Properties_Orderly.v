(** Properties C30 (results in UTF-8, more cases) and C78 (what results are made of). *)
From Coq Require Import String List NArith Lia.
From Verif Require Import M_Base M_Value M_Get M_Valid S_Json S_Path S_Str S_Rough S_Api S_Taken S_Orderly S_Drawn P_Utf8 P_Orderly P_Drawn.
Import ListNotations.
Open Scope list_scope.

(** C30: with a document that is valid JSON and UTF-8, a path that is UTF-8 gives a result
    that is UTF-8, whatever modifiers with whatever arguments stand in the path; except
    that pretty has no argument.  (Missing for the full claim: what is shown to be false
    below.) *)
Theorem C30_valid_partial : forall json v, valid json = Ok true -> utf8 json ->
  drawn (fun p => utf8 p /\ ~ contains p (bs "@pretty:")) json v -> utf8 (v_json v).
Proof. exact valid_drawn. Qed.
Print Assumptions C30_valid_partial.
(** The same holds of documents that are not valid, if their strings are closed and in
    UTF-8, their words are whole and their numbers set apart: the brackets need not match,
    and commas and colons may be missing or too many. *)
Theorem C30_orderly_partial : forall json p v, orderly json -> utf8 p -> ~ contains p (bs "@pretty:") ->
  get json p = Ok v -> orderly (v_json v) /\ utf8 (v_json v).
Proof. exact orderly_get. Qed.
Print Assumptions C30_orderly_partial.
Theorem C30_drawn_partial : forall json v, orderly json ->
  drawn (fun p => utf8 p /\ ~ contains p (bs "@pretty:")) json v -> orderly (v_json v) /\ utf8 (v_json v).
Proof. exact drawn_orderly. Qed.
Print Assumptions C30_drawn_partial.
(** Texts of that kind are a real extension of the valid documents. *)
Theorem C30_orderly_valid : forall json, valid json = Ok true -> utf8 json -> orderly json.
Proof. exact valid_orderly. Qed.
Print Assumptions C30_orderly_valid.
(** The argument of pretty can break it although the document is valid: the text given as
    a prefix is copied out, and then read as a value and cut in the middle of a
    character. *)
Theorem C30_valid_refuted : exists json p v, valid json = Ok true /\ utf8 json /\ utf8 p /\ get json p = Ok v /\ ~ utf8 (v_json v).
Proof. exact pretty_cut. Qed.
Print Assumptions C30_valid_refuted.

(** Whitespace alone between brackets, join with an argument, a name that is not ASCII. *)
Example C30_valid_case : let json := bs "{""" ++ [195; 169]%N ++ bs """:[[ ],{""a"":1},{""a"":2,""b"":[ ]}]}" in
  let p := [195; 169]%N ++ bs "|@flatten|@join:{""preserve"":true}" in
  valid json = Ok true /\ utf8 json /\ utf8 p /\ exists v, get json p = Ok v /\ v_json v = bs "{""a"":1,""a"":2,""b"":[ ]}".
Proof.
  split; [vm_compute; reflexivity|]. split; [|split].
  - apply utf8_app_ascii_l; [repeat constructor|]. apply (utf8_cons 233%N); [left; reflexivity|]. apply utf8_ascii. repeat constructor.
  - apply (utf8_cons 233%N); [left; reflexivity|]. apply utf8_ascii. repeat constructor.
  - eexists. split; vm_compute; reflexivity.
Qed.
(** A name without a colon, two values without a comma, and nothing closed. *)
Example C30_orderly_case : let json := bs "{""a"" [""" ++ [195; 169]%N ++ bs """true,,-1 :" in
  orderly json /\ valid json = Ok false.
Proof.
  split; [|vm_compute; reflexivity]. cbn.
  assert (M : forall c r, mark c -> orderly r -> orderly (c :: r)) by exact or_mark.
  assert (K : forall c, (c < 0x80)%N -> ~ In c [0x22; 0x5C; 0x74; 0x66; 0x6E; 0x2D]%N -> (c < 0x30 \/ 0x39 < c)%N -> mark c).
  { intros c H1 H2 H3. repeat split; auto. lia. }
  apply M; [apply K; cbn; lia|].
  apply (or_string [97%N]); [repeat (constructor; try lia) | apply utf8_ascii; repeat constructor |].
  apply M; [apply K; cbn; lia|]. apply M; [apply K; cbn; lia|].
  apply (or_string [195; 169]%N); [repeat (constructor; try lia) | apply (utf8_cons 233%N []); [left; reflexivity | constructor] |].
  apply (or_word t_true); [cbn; auto|]. apply M; [apply K; cbn; lia|]. apply M; [apply K; cbn; lia|].
  apply (or_number 45%N [49%N]); [auto | constructor; [left; lia | constructor] | |].
  - exists [32%N], [58%N]. repeat split; [constructor; [lia | constructor]|]. right. exists 58%N, []. cbn. auto.
  - apply M; [apply K; cbn; lia|]. apply M; [apply K; cbn; lia|]. apply or_nil.
Qed.
Example C30_orderly_found : let json := bs "{""a"" [""" ++ [195; 169]%N ++ bs """true,,-1 :" in
  exists v, get json (bs "[a.0,@this|@reverse]") = Ok v /\ v_json v = bs "[""" ++ [195; 169]%N ++ bs """,{}]".
Proof. eexists. split; vm_compute; reflexivity. Qed.

(** C78: every byte of a result is ASCII or occurs in the document or in the path, for
    every document at all, if pretty has no argument or the path has no backslash. *)
Theorem C78_made : forall json p v, ~ contains p (bs "@pretty:") \/ ~ In 92%N p -> get json p = Ok v ->
  Forall (fun c => (c < 128)%N \/ In c json \/ In c p) (v_json v).
Proof. exact made_of. Qed.
Print Assumptions C78_made.
(** The same of all that parse, get, each and array hand out, for any class of bytes. *)
Theorem C78_drawn : forall json (Q : N -> Prop) v, Forall Q json ->
  drawn (fun p => Forall Q p /\ (~ contains p (bs "@pretty:") \/ ~ In 92%N p)) json v ->
  Forall (fun c => (c < 128)%N \/ Q c) (v_json v).
Proof. exact drawn_bytes. Qed.
Print Assumptions C78_drawn.
(** From an ASCII text, valid or not, come only ASCII texts; these are UTF-8. *)
Theorem C78_ascii : forall json v, Forall (fun c => (c < 128)%N) json ->
  drawn (fun p => Forall (fun c => (c < 128)%N) p /\ (~ contains p (bs "@pretty:") \/ ~ In 92%N p)) json v ->
  Forall (fun c => (c < 128)%N) (v_json v) /\ utf8 (v_json v).
Proof. exact drawn_ascii. Qed.
Print Assumptions C78_ascii.
(** An escape in an option of pretty is decoded, and the bytes it stands for are new. *)
Theorem C78_excluded : exists json p v, Forall (fun c => (c < 128)%N) json /\ Forall (fun c => (c < 128)%N) p /\
  get json p = Ok v /\ ~ Forall (fun c => (c < 128)%N) (v_json v).
Proof. exact escaped_prefix. Qed.
Print Assumptions C78_excluded.
(** Neither valid JSON nor UTF-8. *)
Example C78_case : let json := bs "[{""a"":""" ++ [195]%N ++ bs """]}" in
  exists v, get json (bs "{x:0.a}|@pretty:{""indent"":""" ++ [255]%N ++ bs """}") = Ok v /\
    v_json v = bs "{
" ++ [255]%N ++ bs """x"": """ ++ [195]%N ++ bs """
}
".
Proof. eexists. split; vm_compute; reflexivity. Qed.

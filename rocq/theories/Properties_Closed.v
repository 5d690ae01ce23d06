(** Properties C27 to C30 and C55: what the results on a valid document are. *)
From Coq Require Import String List.
From Verif Require Import M_Base M_Util M_Value M_Valid M_Get S_Json S_Str S_Get S_Api S_Follow S_Taken S_Mod
  P_Wf P_Utf8 P_Taken P_GetUtf8 P_GetMod P_GetValid.
Import ListNotations.
Open Scope list_scope.

(** C27 and C28.  Every value obtained from a valid document by parse, get, each and
    array, with paths that are [tame] (S_Taken: modifiers are allowed, except flatten and
    the arguments of join and pretty), is either absent or the presentation of a JSON value [c]: it exists, its kind
    is the type of [c], its json is the text of [c] and its string the content of [c]
    ([presents] in S_Taken). *)
Theorem C27_C28_taken : forall json v, valid json = Ok true -> taken json v ->
  absent v \/ exists c, wf c /\ presents v c.
Proof. exact taken_presents. Qed.
Print Assumptions C27_C28_taken.
(** The same without the record, kind by kind. *)
Theorem C27_kind : forall json v, valid json = Ok true -> taken json v ->
  (v_exists v = false /\ v_kind v = KNull) \/
  (v_exists v = true /\ exists c w, wf c /\ ws w /\ v_json v = render c ++ w /\ v_kind v = kind_of c).
Proof.
  intros json v H1 H2. destruct (taken_presents json v H1 H2) as [(H3 & H4 & _)|(c & Hc & [P1 P2 (w & Hw & Pj & _) _])]; [left; auto|].
  right. split; auto. exists c, w. auto.
Qed.
Print Assumptions C27_kind.
Theorem C28_str : forall json v, valid json = Ok true -> taken json v ->
  (v_exists v = false /\ v_str v = Ok []) \/
  (exists c, wf c /\ v_kind v = kind_of c /\
     match kind_of c with
     | KArray | KObject => v_str v = Ok (v_json v)
     | _ => v_json v = render c /\ v_str v = text_of c
     end).
Proof. exact taken_str. Qed.
Print Assumptions C28_str.

Example C27_C28_case : exists v,
  get (bs " {""a"":[1,{""b"":""xé\n""}]}") (bs "a.#(b%""x*"").b") = Ok v /\
  valid (bs " {""a"":[1,{""b"":""xé\n""}]}") = Ok true /\
  v_kind v = KString /\ v_str v = Ok (bs "x" ++ [195; 169; 10]%N).
Proof. eexists. split; [vm_compute; reflexivity|]. vm_compute. repeat split. Qed.
Example C27_C28_chain : forall u v l, parse (bs " [{""a"":[1,null]}] ") = Ok u -> v_get u (bs "0.a") = Ok v -> v_array v = Ok l ->
  Forall (taken (bs " [{""a"":[1,null]}] ")) l /\ map v_kind l = [KNumber; KNull].
Proof.
  intros u v l Hu Hv Hl. split.
  - apply Forall_forall. intros x Hx. apply (tk_elem _ v l x); [|exact Hl|exact Hx].
    apply (tk_vget _ u (bs "0.a")); [exact (tk_parse _ _ Hu) | apply no_modifier_tame; vm_compute; intuition discriminate | exact Hv].
  - vm_compute in Hu. injection Hu as <-. vm_compute in Hv. injection Hv as <-. vm_compute in Hl. injection Hl as <-. reflexivity.
Qed.

(** C29: without modifiers, a result on a valid document exists and is valid JSON, or
    does not exist and is empty; whatever the path is. *)
Theorem C29_valid : forall json p, valid json = Ok true -> ~ In 0x40%N p ->
  exists v, get json p = Ok v /\ ((v_exists v = false /\ v_json v = []) \/ valid (v_json v) = Ok true).
Proof. exact get_valid. Qed.
Print Assumptions C29_valid.
Example C29_case : exists v,
  get (bs "{""a"":[{""b"":1},{""b"":[2, 3]},{""c"":4}]}") (bs "[a.#.b,{x y:a.#(c).c,a.#},a.7]") = Ok v /\
  v_json v = bs "[[1,[2, 3]],{""x y"":4,""_"":3}]" /\
  valid (v_json v) = Ok true.
Proof. eexists. split; [vm_compute; reflexivity|]. split; [vm_compute; reflexivity|]. vm_compute. reflexivity. Qed.

(** C55: the same with modifiers in the path.  Excluded are flatten, and the arguments
    of join and pretty; below are witnesses that each of these can give a text that is
    not JSON. *)
Theorem C55_valid : forall json p, valid json = Ok true -> tame p ->
  exists v, get json p = Ok v /\ ((v_exists v = false /\ v_json v = []) \/ valid (v_json v) = Ok true).
Proof. exact get_valid_tame. Qed.
Print Assumptions C55_valid.
(** With flatten, at any place of the path and with any argument, if no array of the
    document has whitespace and nothing else between its brackets. *)
Theorem C55_flatten : forall w1 c w2 p, ws w1 -> wf c -> ws w2 -> tight c = true ->
  ~ contains p (bs "@join:") -> ~ contains p (bs "@pretty:") ->
  exists v, get (w1 ++ render c ++ w2) p = Ok v /\ ((v_exists v = false /\ v_json v = []) \/ valid (v_json v) = Ok true).
Proof. exact get_valid_tight. Qed.
Print Assumptions C55_flatten.
Theorem C55_excluded :
  (exists v, get (bs "[[ ],1]") (bs "@flatten") = Ok v /\ v_json v = bs "[ ,1]" /\ valid (v_json v) = Ok false) /\
  (exists v, get (bs "[{},{""a"":1}]") (bs "@join:{""preserve"":true}") = Ok v /\ v_json v = bs "{,""a"":1}" /\ valid (v_json v) = Ok false) /\
  (exists v, get (bs "[{}]") (bs "@pretty:{""prefix"":""[""}") = Ok v /\ v_exists v = true /\ valid (v_json v) = Ok false).
Proof.
  split; [|split]; (eexists; split; [vm_compute; reflexivity|]; split; vm_compute; reflexivity).
Qed.
Print Assumptions C55_excluded.
Example C55_case : let p := bs "{r:a.@reverse|0.b|@pretty,j:a|@join|@ugly,n:@nope,v:a.#.@valid}" in
  (exists v, get (bs "{""a"":[{""b"":1},{""b"":[2, 3],""c"":4}]}") p = Ok v /\
  v_json v = bs "{""r"":[2, 3]
,""j"":{""b"":[2,3],""c"":4},""v"":[{""b"":1},{""b"":[2, 3],""c"":4}]}" /\ valid (v_json v) = Ok true).
Proof. eexists. split; [vm_compute; reflexivity|]. split; vm_compute; reflexivity. Qed.
Example C55_flatten_case : exists v,
  get (bs " [[1,[2 ]],[],{""a"":[3]}] ") (bs "@flatten|[1|@flatten,2.a.@flatten]|@flatten:{""deep"":true}") = Ok v /\
  v_json v = bs "[2,3]".
Proof. eexists. split; vm_compute; reflexivity. Qed.

(** C30: the text of a result is UTF-8 when the document is valid JSON and UTF-8, and
    the path is UTF-8 and [tame].  (Missing for the full claim: documents that are not
    valid JSON, where it is false, and the modifiers that are not tame.) *)
Theorem C30_utf8_partial : forall json p v, valid json = Ok true -> utf8 json -> utf8 p -> tame p ->
  get json p = Ok v -> utf8 (v_json v).
Proof. exact get_utf8_tame. Qed.
Print Assumptions C30_utf8_partial.
(** With flatten, if no array has whitespace and nothing else between its brackets. *)
Theorem C30_flatten_partial : forall w1 c w2 p v, ws w1 -> wf c -> ws w2 -> tight c = true ->
  utf8 (w1 ++ render c ++ w2) -> utf8 p -> ~ contains p (bs "@join:") -> ~ contains p (bs "@pretty:") ->
  get (w1 ++ render c ++ w2) p = Ok v -> utf8 (v_json v).
Proof. exact get_utf8_tight. Qed.
Print Assumptions C30_flatten_partial.
(** A literal of a document that is not valid is cut after four bytes, in the middle of
    a character: the document is [[té日]], the path [0]. *)
Theorem C30_refuted : exists json p v, utf8 json /\ utf8 p /\ get json p = Ok v /\ ~ utf8 (v_json v).
Proof. exact get_not_utf8. Qed.
Print Assumptions C30_refuted.
Example C30_case : let json := bs "{""" ++ [195; 169]%N ++ bs """:[1]}" in let p := bs "{x:" ++ [195; 169]%N ++ bs ".0}" in
  valid json = Ok true /\ utf8 json /\ utf8 p /\ exists v, get json p = Ok v /\ v_json v = bs "{""x"":1}".
Proof.
  split; [vm_compute; reflexivity|]. split; [|split].
  - apply utf8_app_ascii_l; [repeat constructor|]. apply (utf8_cons 233%N); [left; reflexivity|]. apply utf8_ascii. repeat constructor.
  - apply utf8_app_ascii_l; [repeat constructor|]. apply (utf8_cons 233%N); [left; reflexivity|]. apply utf8_ascii. repeat constructor.
  - eexists. split; vm_compute; reflexivity.
Qed.

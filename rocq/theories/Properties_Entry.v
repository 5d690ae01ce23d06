(** Properties C63, C65, C66: what can be an entry of a multipath, and what every
    multipath means. *)
From Coq Require Import String List.
From Verif Require Import M_Base M_Util M_Value M_Valid M_Get S_Json S_Get S_Path S_Mod S_Multi S_Bad S_Entry
  P_Multi P_MultiDoc P_Entry.
Import ListNotations.
Open Scope list_scope.

(** C63, as users expect it: for every balanced path [p], [[p]] is the array of what
    [p] finds.  It fails for a modifier with an argument: the path of the entry is
    what follows the last colon, so the modifier is taken for a name. *)
Theorem C63_any_path_refuted : exists json p v w, balanced p /\ get json p = Ok v /\ v_exists v = true /\
  get json (bs "[" ++ p ++ bs "]") = Ok w /\ v_json w <> bs "[" ++ v_json v ++ bs "]".
Proof. exact any_path_refuted. Qed.
Print Assumptions C63_any_path_refuted.

(** It holds for every sub-path: a path without commas and colons except in escapes
    and bracket groups. *)
Theorem C63_any_path_partial : forall json p v, sub_path p -> get json p = Ok v ->
  exists w, get json (bs "[" ++ p ++ bs "]") = Ok w /\
    v_json w = bs "[" ++ (if v_exists v then v_json v else []) ++ bs "]".
Proof. exact entry_alone. Qed.
Print Assumptions C63_any_path_partial.

(** With a colon, what stands before the last one has no influence on an array ... *)
Theorem C63_split : forall json n p v, sub_name n -> sub_path p -> get json p = Ok v ->
  get json (bs "[" ++ (n ++ bs ":" ++ p) ++ bs "]") = get json (bs "[" ++ p ++ bs "]").
Proof. exact entry_split. Qed.
Print Assumptions C63_split.
(** ... and is the key in an object, byte for byte. *)
Theorem C63_split_object : forall json n p v, sub_name n -> sub_path p -> get json p = Ok v ->
  exists w, get json (bs "{" ++ (n ++ bs ":" ++ p) ++ bs "}") = Ok w /\
    v_json w = bs "{" ++ (if v_exists v then escape n ++ bs ":" ++ v_json v else []) ++ bs "}".
Proof. exact entry_split_object. Qed.
Print Assumptions C63_split_object.

(** [[a|@flatten:{"deep":true}]] reads the argument as a path. *)
Example C63_case : sub_name (bs "a|@flatten") /\ sub_path (bs "{""deep"":true}") /\
  (exists v, get (bs "{""a"":[[1,[2]]],""true"":5}") (bs "{""deep"":true}") = Ok v) /\
  exists w, get (bs "{""a"":[[1,[2]]],""true"":5}") (bs "[a|@flatten:{""deep"":true}]") = Ok w /\
    v_json w = bs "[{""\""deep\"""":5}]".
Proof.
  split; [apply part_plain; reflexivity|]. split.
  - apply (pt_group false 0x7B%N (bs """deep"":true") 0x7D%N []); [right; right; reflexivity | | right; right; reflexivity | apply pt_nil].
    apply (part_balanced true). apply (pt_quoted true (bs "deep") (bs ":true")); [|apply part_plain; reflexivity].
    do 4 (apply li_plain; [apply plainb_ok; reflexivity|]). apply li_nil.
  - split; [eexists; vm_compute; reflexivity|]. eexists. split; vm_compute; reflexivity.
Qed.
(** The same in an object: the key is the text of the modifier. *)
Example C63_case_object : exists w, get (bs "{""a"":[[1,[2]]]}") (bs "{a|@flatten:a.0.0}") = Ok w /\
  v_json w = bs "{""a|@flatten"":1}".
Proof. eexists. split; vm_compute; reflexivity. Qed.

(** C65: the meaning of every path that starts with a square or curly bracket.  It is
    read as a multipath in one of the four ways of S_Entry.multi. *)
Theorem C65_reading : forall o t, exists b r, multi (o :: t) o b r.
Proof. exact multi_total. Qed.
Print Assumptions C65_reading.
(** Everything that can stand between the brackets is a list of entries. *)
Theorem C65_entries : forall q, exists es, entries q es.
Proof. exact entries_total. Qed.
Print Assumptions C65_entries.
(** If the last bracket is not of the right kind, nothing is found, whatever follows. *)
Theorem C65_nothing : forall json p o r, o = 0x5B%N \/ o = 0x7B%N -> multi p o None r ->
  exists v, get json p = Ok v /\ v_exists v = false.
Proof. intros json p o r Ho H. exists value_default. split; [exact (multi_nothing json p o r Ho H) | reflexivity]. Qed.
Print Assumptions C65_nothing.
(** Otherwise the result is put together from the results of the entries that exist, as
    in C43.  A dot or pipe behind it continues; anything else behind it is ignored. *)
Theorem C65_array : forall json p q r es vs, multi p 0x5B%N (Some q) r -> entries q es ->
  Forall2 (fun e v => get json (snd e) = Ok v) es vs ->
  exists v, v_exists v = true /\ v_kind v = KArray /\
    v_json v = bs "[" ++ commas (map v_json (filter v_exists vs)) ++ bs "]" /\
    (forall s u, r = s :: u -> separator s -> get json p = v_get v u) /\
    (~ (exists s u, r = s :: u /\ separator s) -> get json p = Ok v).
Proof. exact array_any. Qed.
Print Assumptions C65_array.
Theorem C65_object : forall json p q r es vs, multi p 0x7B%N (Some q) r -> entries q es ->
  Forall2 (fun e v => get json (snd e) = Ok v) es vs ->
  exists v ks, v_exists v = true /\ v_kind v = KObject /\ Forall2 entry_key es ks /\
    v_json v = bs "{" ++ commas (map (fun kv => escape (fst kv) ++ bs ":" ++ v_json (snd kv))
                                     (filter (fun kv => v_exists (snd kv)) (combine ks vs))) ++ bs "}" /\
    (forall s u, r = s :: u -> separator s -> get json p = v_get v u) /\
    (~ (exists s u, r = s :: u /\ separator s) -> get json p = Ok v).
Proof. exact object_any. Qed.
Print Assumptions C65_object.
(** A panic in one entry is a panic of the whole. *)
Theorem C65_panic : forall json p o q r es, o = 0x5B%N \/ o = 0x7B%N -> multi p o (Some q) r -> entries q es ->
  Exists (fun e => get json (snd e) = Err EPanic) es -> get json p = Err EPanic.
Proof. exact multi_panic. Qed.
Print Assumptions C65_panic.

Ltac chars := repeat (apply ck_char; [vm_compute; discriminate | vm_compute; discriminate | unfold bracket_open; vm_compute; intuition discriminate | intros; vm_compute; discriminate |]); try apply ck_nil.
(** The comma splits the name in quotes, a backslash at the end drops an entry, a bracket
    that is not closed belongs to the last entry, and what follows without a dot or pipe is ignored. *)
Example C65_case_quotes :
  entries (bs """x,y"":a") [(None, bs """x"); (Some (bs "y"""), bs "a")] /\
  multi (bs "{""x,y"":a}") 0x7B%N (Some (bs """x,y"":a")) [] /\
  exists v, get (bs "{""a"":1}") (bs "{""x,y"":a}") = Ok v /\ v_json v = bs "{""y\"""":1}".
Proof.
  split.
  { apply (en_cons (None, bs """x") (bs "y"":a")); [exact I | cbn; chars |].
    apply (en_last (Some (bs "y"""), bs "a")); [cbn; chars | left; cbn; chars]. }
  split.
  - apply (mu_closed 0x7B%N (bs """x,y"":a") []). apply (bal_string (bs "x,y") (bs ":a")).
    + repeat (apply qt_char; [discriminate|discriminate|]). apply qt_nil.
    + repeat (apply bal_char; [unfold bracket_open; vm_compute; intuition discriminate | unfold bracket_close; vm_compute; intuition discriminate | discriminate | discriminate |]). apply bal_nil.
  - eexists. split; vm_compute; reflexivity.
Qed.
Example C65_case_cut : entries (bs "a,b\") [(None, bs "a")] /\
  exists v, get (bs "{""a"":1,""b"":2}") (bs "[a,b\]") = Ok v /\ v_json v = bs "[1]".
Proof.
  split.
  - apply (en_cons (None, bs "a") (bs "b\") []); [exact I | cbn; chars|]. apply (en_cut (bs "b")). cbn; chars.
  - eexists. split; vm_compute; reflexivity.
Qed.
Example C65_case_junk : exists v w, get (bs "{""a"":1,""(b"":2}") (bs "[a,(b]") = Ok v /\ v_json v = bs "[1,2]" /\
  get (bs "{""a"":1}") (bs "[a]x.y") = Ok w /\ v_json w = bs "[1]".
Proof. eexists. eexists. split; [vm_compute; reflexivity|]. split; [reflexivity|]. split; [vm_compute; reflexivity|]. reflexivity. Qed.
Example C65_case_wrong : exists v, get (bs "{""a"":1}") (bs "[a}.x") = Ok v /\ v_exists v = false.
Proof. eexists. split; vm_compute; reflexivity. Qed.

(** C66, as documented for the path syntax: in [{"name":path}] the member is called
    name.  It is called "name", with the quotes. *)
Theorem C66_quoted_name_refuted : exists json n p v w, Forall plain n /\ get json p = Ok v /\ v_exists v = true /\
  get json (bs "{" ++ quoted n ++ bs ":" ++ p ++ bs "}") = Ok w /\
  v_json w <> bs "{" ++ escape n ++ bs ":" ++ v_json v ++ bs "}".
Proof. exact quoted_name_refuted. Qed.
Print Assumptions C66_quoted_name_refuted.
(** What is true instead, for every name in quotes without commas and brackets. *)
Theorem C66_quoted_name_partial : forall json n p v, literal true n -> sub_path p -> get json p = Ok v ->
  exists w, get json (bs "{" ++ quoted n ++ bs ":" ++ p ++ bs "}") = Ok w /\
    v_json w = bs "{" ++ (if v_exists v then escape (quoted n) ++ bs ":" ++ v_json v else []) ++ bs "}".
Proof. exact quoted_name. Qed.
Print Assumptions C66_quoted_name_partial.
Example C66_case : literal true (bs "the_murphys") /\ sub_path (bs "a") /\
  exists w, get (bs "{""a"":[1]}") (bs "{""the_murphys"":a}") = Ok w /\ v_json w = bs "{""\""the_murphys\"""":[1]}".
Proof.
  split; [repeat (apply li_plain; [apply plainb_ok; reflexivity|]); apply li_nil|]. split; [apply part_plain; reflexivity|].
  eexists. split; vm_compute; reflexivity.
Qed.

(** Properties C03 to C07: escape, unescape, wildcard matching. *)
From Coq Require Import String List.
From Verif Require Import M_Base S_Json S_Str M_Util M_Valid P_Str P_Utf8 P_Glob P_Spell.

(** C03: unescape undoes escape. *)
Theorem C03_unescape_escape : forall s : list N, unescape (escape s) = Ok s.
Proof. exact escape_unescape. Qed.
Print Assumptions C03_unescape_escape.
Example C03_case : escape (1 :: bs "a""\/é" ++ [10])%N = bs """\u0001a\""\\/é\n""".
Proof. vm_compute. reflexivity. Qed.

(** C04: escape produces a valid JSON string without control characters, and it
    leaves alone what needs no escaping. *)
Theorem C04_escape_is_json_string : forall s : list N,
  valid (escape s) = Ok true
  /\ (exists b, chars b /\ escape s = quoted b)
  /\ Forall (fun c => (0x20 <= c)%N) (escape s)
  /\ (Forall plain s -> escape s = quoted s).
Proof. exact escape_json_string. Qed.
Print Assumptions C04_escape_is_json_string.
Example C04_case : valid (escape (bs "a""\/é" ++ [10; 0])%N) = Ok true.
Proof. apply C04_escape_is_json_string. Qed.

(** The literal denotes exactly the given bytes, it is spelled byte by byte in the
    customary way, and no literal that denotes them is shorter. *)
Theorem C04_denotes : forall s : list N, exists b, escape s = quoted b /\ denotes b s.
Proof. exact escape_denotes. Qed.
Print Assumptions C04_denotes.
Theorem C04_spelling : forall s : list N, escape s = quoted (concat (map spelling s)).
Proof. exact escape_exact. Qed.
Print Assumptions C04_spelling.
Theorem C04_shortest : forall b s : list N, denotes b s -> length (escape s) <= length (quoted b).
Proof. exact escape_shortest. Qed.
Print Assumptions C04_shortest.
Example C04_shortest_case : denotes (bs "\u0041\/\u001f") [65; 47; 31]%N /\
  escape [65; 47; 31]%N = bs """A/\u001F""".
Proof.
  split; [|vm_compute; reflexivity].
  apply (den_uni _ 48 48 52 49 (bs "\/\u001f") [47; 31]%N); try (unfold hex, scalar; vm_compute; intuition congruence).
  apply (den_short _ 47 (bs "\u001f") [31]%N); [cbn; tauto|].
  apply (den_uni _ 48 48 49 102 [] []); try (unfold hex, scalar; vm_compute; intuition congruence). constructor.
Qed.

(** C05 as stated in full is false: a surrogate pair in an even plane (here U+20000)
    is decoded to another character. *)
Theorem C05_unescape_rfc_refuted :
  exists b t, denotes b t /\ utf8 b /\ unescape (quoted b) <> Ok t.
Proof. exact unescape_even_plane. Qed.
Print Assumptions C05_unescape_rfc_refuted.

(** What holds: decoding is as RFC 8259 says when every surrogate pair of the
    literal is in an odd plane (all of plane 1, hence all emoji). Missing: the
    even planes, where it is false. *)
Theorem C05_unescape_rfc_partial : forall b t,
  denotes_odd b t -> unescape (quoted b) = Ok t.
Proof. exact unescape_denotes_odd. Qed.
Print Assumptions C05_unescape_rfc_partial.

(** The boundary is exact: a lone pair decodes correctly if and only if its plane is odd. *)
Theorem C05_unescape_pair_exact : forall h1 h2 h3 h4 l1 l2 l3 l4,
  hex h1 -> hex h2 -> hex h3 -> hex h4 -> hex l1 -> hex l2 -> hex l3 -> hex l4 ->
  high_surrogate (hex4_val h1 h2 h3 h4) -> low_surrogate (hex4_val l1 l2 l3 l4) ->
  (unescape (quoted (u_escape h1 h2 h3 h4 ++ u_escape l1 l2 l3 l4)) =
     Ok (utf8_enc (pair_value (hex4_val h1 h2 h3 h4) (hex4_val l1 l2 l3 l4)))
   <-> odd_plane (hex4_val h1 h2 h3 h4) (hex4_val l1 l2 l3 l4)).
Proof. exact unescape_pair_exact. Qed.
Print Assumptions C05_unescape_pair_exact.

(** U+1F600 with text, a short escape and a BMP escape before it. *)
Example C05_case :
  let b := (bs "a\n" ++ u_escape 48 48 101 57 ++ u_escape 100 56 51 100 ++ u_escape 100 101 48 48)%N in
  denotes_odd b (bs "a" ++ [10] ++ utf8_enc 0xE9 ++ utf8_enc 0x1F600)%N
  /\ unescape (quoted b) = Ok (bs "a" ++ [10] ++ utf8_enc 0xE9 ++ utf8_enc 0x1F600)%N.
Proof.
  split; [|vm_compute; reflexivity].
  apply den_plain; [repeat split; vm_compute; congruence|].
  apply (den_short _ 110 (u_escape 48 48 101 57 ++ u_escape 100 56 51 100 ++ u_escape 100 101 48 48)%N);
    [unfold short_esc; simpl; tauto|].
  apply (den_uni _ 48 48 101 57 (u_escape 100 56 51 100 ++ u_escape 100 101 48 48)%N); try (unfold hex; lia).
  { left. vm_compute. reflexivity. }
  apply (den_pair _ 100 56 51 100 100 101 48 48 [] []); try (unfold hex; lia).
  - vm_compute; split; congruence.
  - vm_compute; split; congruence.
  - vm_compute; reflexivity.
  - apply den_nil.
Qed.

(** C06 as stated in full is false: unescape can return bytes that are not UTF-8. *)
Theorem C06_unescape_utf8_refuted : exists s t, utf8 s /\ unescape s = Ok t /\ ~ utf8 t.
Proof. exact unescape_not_utf8. Qed.
Print Assumptions C06_unescape_utf8_refuted.

(** What holds: the result is UTF-8 for every valid JSON literal, and for every
    literal, valid or not, whose [\u] are each followed by four ASCII bytes or the
    end.  Missing: [\u] followed by a multi-byte character, where it is false. *)
Theorem C06_unescape_utf8_partial : forall s t,
  utf8 s -> (json_value s \/ exists b, s = quoted b /\ u_ascii b) ->
  unescape s = Ok t -> utf8 t.
Proof. exact unescape_utf8_cases. Qed.
Print Assumptions C06_unescape_utf8_partial.
(** A malformed literal covered by the second case, and a valid one. *)
Example C06_case1 : utf8 (bs """\q\uZZZZ""") /\ u_ascii (bs "\q\uZZZZ").
Proof.
  split; [apply utf8_ascii; repeat (constructor; [vm_compute; reflexivity|]); constructor|].
  apply ua_esc; [vm_compute; congruence|]. apply ua_uni; try (vm_compute; reflexivity). constructor.
Qed.
Example C06_case2 :
  unescape (quoted (u_escape 48 48 101 57 ++ utf8_enc 0x1F600))%N = Ok (utf8_enc 0xE9 ++ utf8_enc 0x1F600)%N
  /\ unescape (quoted (u_escape 100 99 48 48)%N) = Ok (utf8_enc 0xFFFD).
Proof. vm_compute. auto. Qed.

(** The matcher of wildcard components.  It deviates from the documented language
    on an escaped question mark and on a question mark against a multi-byte
    character... *)
Theorem C07_matcher_refuted :
  (exists p s, utf8 p /\ ascii s /\ pmatch p s = Ok true /\ ~ glob utf8_char p s) /\
  (exists p s, no_escaped_qm p /\ utf8 p /\ utf8 s /\ pmatch p s = Ok false /\ glob utf8_char p s).
Proof. exact pmatch_deviates. Qed.
Print Assumptions C07_matcher_refuted.

(** ... and implements it exactly otherwise. *)
Theorem C07_matcher_partial : forall p s,
  (no_escaped_qm p /\ ascii s) \/ (~ In 0x3F%N p /\ utf8 p /\ utf8 s) ->
  exists b, pmatch p s = Ok b /\ (b = true <-> glob utf8_char p s).
Proof. exact pmatch_glob_doc. Qed.
Print Assumptions C07_matcher_partial.

(** On arbitrary bytes, with a question mark read as any one byte. *)
Theorem C07_matcher_bytes_partial : forall p s, no_escaped_qm p ->
  exists b, pmatch p s = Ok b /\ (b = true <-> glob byte_char p s).
Proof. exact pmatch_glob_bytes. Qed.
Print Assumptions C07_matcher_bytes_partial.
(** On arbitrary bytes and for every pattern: what it matches is exactly the language
    of the pattern without the backslashes before question marks, with a question
    mark read as any one byte. *)
Theorem C07_matcher_exact : forall p s,
  exists b, pmatch p s = Ok b /\ (b = true <-> glob byte_char (bare_qm p) s).
Proof. exact pmatch_exact. Qed.
Print Assumptions C07_matcher_exact.
Example C07_matcher_exact_case : bare_qm (bs "a\?\\?") = bs "a?\\?" /\
  pmatch (bs "a\?\\?") (bs "ab\c") = Ok true /\ pmatch (bs "a\?\\?") (bs "a?cc") = Ok false.
Proof. vm_compute. intuition congruence. Qed.
Example C07_matcher_case : no_escaped_qm (bs "h\*l?o*d") /\ pmatch (bs "h\*l?o*d") (bs "h*l?o world") = Ok true
  /\ pmatch (bs "h\*l?o*d") (bs "hel?o world") = Ok false.
Proof. vm_compute. intuition congruence. Qed.

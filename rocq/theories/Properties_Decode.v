(** Property C59, and the exact extent of C05 and C06: how every string literal is decoded. *)
From Coq Require Import String List.
From Verif Require Import M_Base M_Util M_Value M_Valid M_Get S_Json S_Str S_Get S_Api S_Taken S_Decode P_Wf P_Taken P_GetMod P_Decode.
Import ListNotations.
Open Scope list_scope.

(** C59: every text between two quotes, valid or not, is decoded to exactly one text,
    the one that [decodes] (S_Decode) says. *)
Theorem C59_unescape : forall b, exists t, decodes b t /\ (forall t', decodes b t' -> t' = t) /\ unescape (quoted b) = Ok t.
Proof. exact unescape_decodes. Qed.
Print Assumptions C59_unescape.
(** What is not between two quotes is decoded to the empty text. *)
Theorem C59_unquoted : forall s, (forall b, s <> quoted b) -> unescape s = Ok [].
Proof. exact unescape_unquoted. Qed.
Print Assumptions C59_unquoted.
(** For a string taken from a valid document, str() is the decoded text. *)
Theorem C59_str : forall json v, valid json = Ok true -> taken json v -> v_kind v = KString ->
  exists b t, chars b /\ v_json v = quoted b /\ v_str v = Ok t /\ decodes b t.
Proof. exact str_decodes. Qed.
Print Assumptions C59_str.

(** C05, exactly: a literal is decoded to what it denotes if and only if all its
    surrogate pairs are in odd planes. *)
Theorem C05_unescape_rfc_exact : forall b t, denotes b t -> (unescape (quoted b) = Ok t <-> denotes_odd b t).
Proof. exact unescape_rfc_exact. Qed.
Print Assumptions C05_unescape_rfc_exact.
(** C06, exactly: the result is UTF-8 if and only if no four bytes after a backslash-u
    end inside a character. *)
Theorem C06_unescape_utf8_exact : forall b t, utf8 b -> unescape (quoted b) = Ok t -> (utf8 t <-> whole_u b).
Proof. exact unescape_utf8_exact. Qed.
Print Assumptions C06_unescape_utf8_exact.

(** A newline escape, a plus sign in place of a digit, four bytes that are no digits, a
    pair, a lone surrogate, and an unknown escape that ends it. *)
Definition lit1 : text :=
  (bs "a\n" ++ u_escape 43 48 52 49 ++ u_escape 90 90 90 90 ++ u_escape 100 56 51 100 ++ u_escape 100 101 48 48 ++
   u_escape 100 99 48 48 ++ bs "z\qrest")%N.
Example C59_case : decodes lit1 (bs "a" ++ [10] ++ bs "A" ++ utf8_enc 0xFFFD ++ utf8_enc 0x1F600 ++ utf8_enc 0xFFFD ++ bs "z")%N
  /\ unescape (quoted lit1) = Ok (bs "a" ++ [10] ++ bs "A" ++ utf8_enc 0xFFFD ++ utf8_enc 0x1F600 ++ utf8_enc 0xFFFD ++ bs "z")%N.
Proof.
  assert (E : unescape (quoted lit1) = Ok (bs "a" ++ [10] ++ bs "A" ++ utf8_enc 0xFFFD ++ utf8_enc 0x1F600 ++ utf8_enc 0xFFFD ++ bs "z")%N)
    by (vm_compute; reflexivity).
  split; [|exact E]. destruct (C59_unescape lit1) as (t & Hd & _ & Et). rewrite E in Et. injection Et as <-. exact Hd.
Qed.
(** A pair of an even plane: U+20000 becomes U+10000. *)
Example C59_even : decodes (u_escape 100 56 52 48 ++ u_escape 100 99 48 48)%N (utf8_enc 0x10000 ++ []).
Proof.
  refine (dc_pair 100 56 52 48 0xD840 100 99 48 48 0xDC00 0x10000 [] [] _ _ _ _ dc_nil)%N.
  - apply (c4_hex 100 56 52 48)%N; unfold hex; lia.
  - left. unfold high_surrogate. lia.
  - apply (c4_hex 100 99 48 48)%N; unfold hex; lia.
  - apply (pc_even 0xD840 0xDC00)%N; [unfold high_surrogate; lia|unfold low_surrogate; lia|vm_compute; discriminate].
Qed.
Example C59_unquoted_case : (forall b, bs """abc" <> quoted b) /\ (forall b, bs """" <> quoted b).
Proof.
  split; intros b E; apply (f_equal (@rev N)) in E; unfold quoted in E; rewrite !app_comm_cons, rev_app_distr in E; cbn in E; [discriminate|].
  destruct (rev b); discriminate.
Qed.
Example C59_str_case : exists v, get (bs "{""k"":[0,""x\t\\y""]}") (bs "k.1") = Ok v /\ v_kind v = KString /\ v_str v = Ok (bs "x" ++ [9; 92] ++ bs "y")%N.
Proof. eexists. split; [vm_compute; reflexivity|]. split; vm_compute; reflexivity. Qed.
Example C05_exact_case : let b := (u_escape 100 56 52 48 ++ u_escape 100 99 48 48)%N in
  denotes b (utf8_enc 0x20000 ++ []) /\ unescape (quoted b) <> Ok (utf8_enc 0x20000 ++ []).
Proof.
  split; [|vm_compute; discriminate].
  apply (den_pair _ 100 56 52 48 100 99 48 48 [] [])%N; try (unfold hex; lia); try exact I; try constructor; vm_compute; congruence.
Qed.
(** Backslash-u before two two-byte characters keeps the text UTF-8; before one letter
    and two of them it does not. *)
Example C06_exact_case : whole_u (bs "\u" ++ utf8_enc 0xE9 ++ utf8_enc 0xE9)%N /\ ~ whole_u (bs "\ux" ++ utf8_enc 0xE9 ++ utf8_enc 0xE9)%N.
Proof.
  split.
  - apply (wu_uni 195 169 195 169 [])%N; [|constructor].
    apply (utf8_cons 0xE9 [195; 169])%N; [left; reflexivity|]. apply (utf8_cons 0xE9 [])%N; [left; reflexivity|constructor].
  - intros H.
    assert (U : utf8 (bs "\ux" ++ utf8_enc 0xE9 ++ utf8_enc 0xE9)%N).
    { apply P_Utf8.utf8_app_ascii_l; [repeat (constructor; [reflexivity|]); constructor|].
      apply (utf8_cons 0xE9 [195; 169])%N; [left; reflexivity|]. apply (utf8_cons 0xE9 [])%N; [left; reflexivity|constructor]. }
    assert (E : unescape (quoted (bs "\ux" ++ utf8_enc 0xE9 ++ utf8_enc 0xE9)%N) = Ok (utf8_enc 0xFFFD ++ [169%N])) by (vm_compute; reflexivity).
    apply (C06_unescape_utf8_exact _ _ U E) in H. apply P_Utf8.utf8_app_inv_l in H; [|apply utf8_enc_utf8; right; split; [discriminate|reflexivity]].
    apply P_Utf8.utf8_head in H. apply H. unfold P_Utf8.cont. lia.
Qed.

(** Property C75: what parse(), each() and array() make of a text that need not be JSON.
    [pieces] (S_Rough) says how a text is taken apart. *)
From Coq Require Import String List NArith.
From Verif Require Import M_Base M_Value S_Json S_Path S_Api S_Rough P_Rough.
Import ListNotations.
Open Scope list_scope.

(** Every text is taken apart in exactly one way. *)
Theorem C75_pieces : forall n s, exists l, pieces n s l /\ forall l', pieces n s l' -> l' = l.
Proof. exact pieces_one. Qed.
Print Assumptions C75_pieces.

(** array() of a value of kind Array are the pieces of its text, each with its place in it. *)
Theorem C75_array : forall v c s l, v_kind v = KArray -> v_json v = c :: s -> pieces 1 s l ->
  exists xs, v_array v = Ok xs /\ Forall2 is_piece xs l.
Proof. exact array_pieces. Qed.
Print Assumptions C75_array.

(** each() calls back with the pieces: for an array one at a time, with a key that does
    not exist; for an object two at a time.  ([record_args] puts what is visited in front
    of the list.) *)
Theorem C75_each_array : forall v c s l, v_kind v = KArray -> v_json v = c :: s -> pieces 1 s l ->
  exists xs, v_each v record_args [] = Ok (rev xs) /\ Forall (fun kx => fst kx = value_default) xs /\ Forall2 is_piece (map snd xs) l.
Proof. exact each_pieces. Qed.
Print Assumptions C75_each_array.
Theorem C75_each_object : forall v c s l, v_kind v = KObject -> v_json v = c :: s -> pieces 1 s l ->
  exists xs, v_each v record_args [] = Ok (rev xs) /\
    Forall2 (fun x p => is_piece (fst x) (fst p) /\ is_piece (snd x) (snd p)) xs (two_by_two l).
Proof. exact object_pieces. Qed.
Print Assumptions C75_each_object.

(** parse(): behind the blanks at the beginning it takes the first piece; from a bracket
    on it takes everything; and where no piece begins there is nothing. *)
Theorem C75_parse_token : forall w t k r, Forall (fun c => (c <= 0x20)%N) w -> token t k r -> k <> KObject -> k <> KArray ->
  exists v, parse (w ++ t ++ r) = Ok v /\ is_piece v (length w, t, k).
Proof. exact parse_token. Qed.
Print Assumptions C75_parse_token.
Theorem C75_parse_bracket : forall w c r, Forall (fun c => (c <= 0x20)%N) w -> c = 0x7B%N \/ c = 0x5B%N ->
  exists v, parse (w ++ c :: r) = Ok v /\ is_piece v (length w, c :: r, if (c =? 0x7B)%N then KObject else KArray).
Proof. exact parse_bracket. Qed.
Print Assumptions C75_parse_bracket.
Theorem C75_parse_nothing : forall w r, Forall (fun c => (c <= 0x20)%N) w ->
  (forall c t, r = c :: t -> (0x20 < c)%N /\ c <> 0x7B%N /\ c <> 0x5B%N) -> (forall t k r', token t k r' -> r <> t ++ r') ->
  exists v, parse (w ++ r) = Ok v /\ v_exists v = false.
Proof. exact parse_nothing. Qed.
Print Assumptions C75_parse_nothing.

(** A text that is far from JSON: missing and surplus commas, a misspelt literal, brackets
    that do not match, and an end in the middle of a string. *)
Definition rdoc : list N := bs " [ 1e+ ,, ""a"" trap:{(} -5-x ""b".
Example C75_case : exists v l, parse rdoc = Ok v /\ v_kind v = KArray /\ v_json v = 0x5B%N :: tl (tl rdoc) /\ pieces 1 (tl (tl rdoc)) l /\
  l = [(2, bs "1e+", KNumber); (9, bs """a""", KString); (13, bs "trap", KTrue)].
Proof.
  assert (P : exists v, parse rdoc = Ok v /\ v_kind v = KArray /\ v_json v = 0x5B%N :: tl (tl rdoc)) by (eexists; split; [vm_compute; reflexivity|split; reflexivity]).
  destruct P as (v & P1 & P2 & P3). exists v, [(2, bs "1e+", KNumber); (9, bs """a""", KString); (13, bs "trap", KTrue)].
  split; [exact P1|]. split; [exact P2|]. split; [exact P3|]. split; [|reflexivity].
  destruct (pieces_total 1 (tl (tl rdoc))) as (l & H). destruct (array_pieces v _ _ l P2 P3 H) as (xs & A & F).
  vm_compute in P1. injection P1 as <-. vm_compute in A. injection A as <-.
  repeat match goal with F : Forall2 _ (_ :: _) _ |- _ => inversion F as [|? [[? ?] ?] ? ? (? & ? & ? & _) ?]; clear F; subst
                       | F : Forall2 _ [] _ |- _ => inversion F; clear F; subst end.
  repeat match goal with E : v_kind _ = _ |- _ => vm_compute in E; subst | E : v_index _ = Some _ |- _ => vm_compute in E; injection E as <- end.
  exact H.
Qed.
(** The hypotheses of the theorems about parse(). *)
Example C75_tokens : token (bs "nuts") KNull (bs " ]") /\ token (bs "-") KNumber (bs "x") /\ token (bs "{()]") KObject [] /\
  forall t k r, token t k r -> bs "fals" <> t ++ r.
Proof.
  split; [apply (tk_null (bs "uts")); reflexivity|].
  split.
  { apply (tk_number 0x2D%N []); [right; reflexivity|constructor|].
    intros d r' [= <- <-] [[H1 H2]|H]; [vm_compute in H2; congruence|vm_compute in H; intuition discriminate]. }
  split.
  { apply (tk_object (bs "()") 0x5D%N); [|vm_compute; tauto].
    apply (bal_group 0x28%N [] 0x29%N []); [vm_compute; tauto|constructor|vm_compute; tauto|constructor]. }
  intros t k r H E. destruct H; try (vm_compute in E; discriminate E).
  - cbn in E. injection E as E1 E2. destruct H as [[_ G]| ->]; [subst; vm_compute in G; congruence|discriminate].
  - apply (f_equal (@length N)) in E. cbn [bs length app] in E. injection E as E. assert (L : length (t ++ r) = 3) by (rewrite <- E; reflexivity).
    rewrite app_length, H in L. discriminate L.
Qed.

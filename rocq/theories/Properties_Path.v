(** Properties C10, C12, C23 and C24: results are substrings, dotted paths, pipes. *)
From Coq Require Import String List.
From Verif Require Import M_Base M_Util M_Value M_Path M_Get S_Json S_Str S_Get S_Path S_Query S_Follow
  P_Wf P_Sub P_Pipe P_Follow.
Import ListNotations.
Open Scope list_scope.

(** C10: without modifiers, hashes and multipaths a result is a substring of the
    document, whatever the document and the path are. *)
Theorem C10_substring : forall json p v,
  (forall c, In c p -> c <> 0x40%N /\ c <> 0x23%N /\ c <> 0x5B%N /\ c <> 0x7B%N) ->
  get json p = Ok v -> exists a b, json = a ++ v_json v ++ b.
Proof. exact get_substring. Qed.
Print Assumptions C10_substring.
Example C10_case : exists v, get (bs "{""a"":{""b"":[1,{""c"":tru") (bs "a.b|1.c") = Ok v /\ v_json v = [].
Proof. eexists. split; [vm_compute; reflexivity|]. vm_compute. reflexivity. Qed.
Example C10_case2 : exists v, get (bs "{""a"":{""b"":[1,{""c"": -2x}]") (bs "a.b|1.c") = Ok v /\ v_json v = bs "-2".
Proof. eexists. split; [vm_compute; reflexivity|]. vm_compute. reflexivity. Qed.

(** C12, the keys can be followed: the result is the value they lead to. *)
Theorem C12_found : forall w1 c w2 ks d, ws w1 -> wf c ->
  ks <> [] -> Forall (fun k => plain_key k /\ k <> []) ks -> reaches c ks d ->
  gets (w1 ++ render c ++ w2) (dotted ks) d.
Proof. exact get_dotted. Qed.
Print Assumptions C12_found.
(** The same for arbitrary names, written with backslashes. *)
Theorem C12_found_escaped : forall w1 c w2 ks d, ws w1 -> wf c ->
  ks <> [] -> Forall (fun k => k <> [] /\ ~ In 0x3F%N k) ks -> reaches c ks d ->
  gets (w1 ++ render c ++ w2) (dotted (map path_escape ks)) d.
Proof. exact get_dotted_escaped. Qed.
Print Assumptions C12_found_escaped.

(** C12, the keys cannot be followed: nothing is found provided that no key but
    the last occurs twice as a string in the document.  (Missing for the full
    claim: documents where it does, see [C12_missing_refuted].) *)
Theorem C12_missing_partial : forall w1 c w2 ks, ws w1 -> wf c ->
  ks <> [] -> Forall (fun k => plain_key k /\ k <> []) ks ->
  (forall k, In k (removelast ks) -> at_most_once k c) ->
  (forall d, ~ reaches c ks d) ->
  gets_none (w1 ++ render c ++ w2) (dotted ks).
Proof. exact get_dotted_none. Qed.
Print Assumptions C12_missing_partial.
Theorem C12_missing_escaped_partial : forall w1 c w2 ks, ws w1 -> wf c ->
  ks <> [] -> Forall (fun k => k <> [] /\ ~ In 0x3F%N k) ks ->
  (forall k, In k (removelast ks) -> at_most_once k c) ->
  (forall d, ~ reaches c ks d) ->
  gets_none (w1 ++ render c ++ w2) (dotted (map path_escape ks)).
Proof. exact get_dotted_escaped_none. Qed.
Print Assumptions C12_missing_escaped_partial.

(** A document to follow keys in: an object with an array of an object, and a
    name written with an escape. *)
Definition mb (k : string) (v : cst) : memb cst := Memb [] (bs k) [] [0x20%N] v [].
Definition it (v : cst) : item cst := Item [0x20%N] v [].
Definition fdoc : cst :=
  CObj [] [mb "x.y" (CNum (bs "1")); mb "a" (CArr [] [it (CStr (bs "a*")); it (CObj [] [mb "x" (CStr (bs "q")); mb "z" CNull])])].
Lemma fdoc_wf : wf fdoc.
Proof. apply wfb_wf. vm_compute. reflexivity. Qed.

Lemma plain_ok k : k <> [] -> forallb (fun c => negb (existsb (N.eqb c) [0x2E; 0x7C; 0x5C; 0x2A; 0x3F; 0x40; 0x23; 0x7B; 0x5B]%N)) k = true ->
  plain_key k /\ k <> [].
Proof.
  intros Hn H. split; auto. rewrite forallb_forall in H. split.
  - apply Forall_forall. intros c Hc. specialize (H c Hc). cbn [existsb] in H. unfold comp_byte, wild_byte. Lia.lia.
  - destruct k as [|c t]; [congruence|]. specialize (H c (or_introl eq_refl)). cbn [existsb] in H. cbn [comp_head]. Lia.lia.
Qed.
Ltac keys_ok := repeat (constructor; [apply plain_ok; [discriminate | reflexivity]|]); constructor.

Lemma fdoc_reaches : reaches fdoc [bs "a"; bs "1"; bs "x"] (CStr (bs "q")).
Proof.
  apply (re_memb [] [mb "x.y" (CNum (bs "1"))] (mb "a" _) []); [vm_compute; reflexivity| |].
  - repeat constructor; intros H; vm_compute in H; discriminate.
  - apply (re_item [] [it (CStr (bs "a*"))] (it _) []).
    + apply ik_plain; [split; [discriminate|]; repeat constructor; discriminate | reflexivity | reflexivity].
    + apply (re_memb [] [] (mb "x" _) [mb "z" CNull]); [vm_compute; reflexivity | constructor | apply re_here].
Qed.
Example C12_found_case : gets ([0x20%N] ++ render fdoc ++ bs "junk") (bs "a.1.x") (CStr (bs "q")).
Proof.
  apply (C12_found [0x20%N] fdoc (bs "junk") [bs "a"; bs "1"; bs "x"]); auto using fdoc_wf, fdoc_reaches; try discriminate.
  - repeat constructor.
  - keys_ok.
Qed.
Example C12_escaped_case : gets (render fdoc) (bs "x\.y") (CNum (bs "1")).
Proof.
  pose proof (C12_found_escaped [] fdoc [] [bs "x.y"] (CNum (bs "1"))) as H. cbn [app] in H. rewrite app_nil_r in H. apply H.
  - constructor.
  - exact fdoc_wf.
  - discriminate.
  - constructor; [|constructor]. split; [discriminate|]. vm_compute. intuition discriminate.
  - apply (re_memb [] [] (mb "x.y" _) [mb "a" _]); [vm_compute; reflexivity | constructor | apply re_here].
Qed.
Lemma at_most_once_count k c :
  length (filter (fun x => match unescape (quoted x) with Ok y => if list_eq_dec N.eq_dec y k then true else false | _ => false end) (strings c)) <= 1 ->
  at_most_once k c.
Proof.
  intros H a x b y d E Hx Hy. rewrite E in H. rewrite filter_app, app_length in H.
  cbn [filter] in H. rewrite Hx in H. destruct (list_eq_dec N.eq_dec k k); [|congruence].
  rewrite filter_app in H. cbn [filter] in H. rewrite Hy in H. destruct (list_eq_dec N.eq_dec k k); [|congruence].
  cbn [length] in H. rewrite app_length in H. cbn [length] in H. Lia.lia.
Qed.
Lemma index_key_no k n : index_key k n -> match k with [] => False | c :: _ => (c < 0x3A)%N end.
Proof.
  assert (D : forall ds, digits1 ds -> match ds with [] => False | c :: _ => (c < 0x3A)%N end).
  { intros ds [Hn Hd]. destruct ds; [congruence|]. inversion Hd; subst. unfold digit in *. Lia.lia. }
  intros H. destruct H as [ds n Hd _ _|ds n _ _ _|ds _ _]; [exact (D ds Hd)| |]; reflexivity.
Qed.
Lemma reaches_obj w ms k ks d : reaches (CObj w ms) (k :: ks) d ->
  exists m, In m ms /\ named m k /\ reaches (m_val m) ks d.
Proof. intros H. inversion H; subst. eexists. split; [apply in_elt|]. auto. Qed.
Lemma reaches_arr w es k ks d : reaches (CArr w es) (k :: ks) d -> exists n, index_key k n.
Proof. intros H. inversion H; subst. eauto. Qed.

Example C12_missing_case : gets_none (render fdoc) (bs "a.x").
Proof.
  pose proof (C12_missing_partial [] fdoc [] [bs "a"; bs "x"]) as H. cbn [app] in H. rewrite app_nil_r in H. apply H.
  - constructor.
  - exact fdoc_wf.
  - discriminate.
  - keys_ok.
  - intros k [<-|[]]. apply at_most_once_count. vm_compute. repeat constructor.
  - intros d Hd. apply reaches_obj in Hd as (m & [<-|[<-|[]]] & Hn & Hr); [vm_compute in Hn; discriminate|].
    cbn [mb m_val] in Hr. apply reaches_arr in Hr as (n & Hi). apply index_key_no in Hi. vm_compute in Hi. discriminate.
Qed.

(** C12 as stated is false: when the value of a key is an object that does not
    have the next key, the search goes on inside that object. *)
Definition rdoc : cst :=
  CObj [] [mb "a" (CObj [] [mb "a" (CObj [] [mb "b" (CNum (bs "1"))])])].
Theorem C12_missing_refuted : exists c ks, wf c /\ ks <> [] /\ Forall (fun k => plain_key k /\ k <> []) ks /\
  (forall d, ~ reaches c ks d) /\
  exists v, get (render c) (dotted ks) = Ok v /\ v_exists v = true.
Proof.
  exists rdoc, [bs "a"; bs "b"]. split; [apply wfb_wf; vm_compute; reflexivity|].
  split; [discriminate|]. split; [keys_ok|]. split.
  - intros d Hd. apply reaches_obj in Hd as (m & [<-|[]] & Hn & Hr). cbn [mb m_val] in Hr.
    apply reaches_obj in Hr as (m & [<-|[]] & Hn' & Hr'). vm_compute in Hn'. discriminate.
  - eexists. split; [vm_compute; reflexivity|]. vm_compute. reflexivity.
Qed.
Print Assumptions C12_missing_refuted.

(** C23: whatever the document is, a pipe after plain components applies the second
    path to the result of the first. *)
Theorem C23_pipe : forall ks B json, ks <> [] -> Forall any_comp ks ->
  get json (dotted ks ++ 0x7C%N :: B) = (v <- get json (dotted ks) ;; v_get v B).
Proof. exact get_pipe. Qed.
Print Assumptions C23_pipe.
(** The same from a value on. *)
Theorem C23_pipe_value : forall ks B u, ks <> [] -> Forall any_comp ks ->
  v_get u (dotted ks ++ 0x7C%N :: B) = (v <- v_get u (dotted ks) ;; v_get v B).
Proof. exact v_get_pipe. Qed.
Print Assumptions C23_pipe_value.
Lemma C23_comps : Forall any_comp [bs "a"; bs "#(x=""q"")"].
Proof.
  constructor.
  - left. split; [repeat constructor; discriminate|]. repeat split; discriminate.
  - constructor; [|constructor]. right. right. exists (bs "x=""q"""), false. split; [|reflexivity].
    apply bal_char; [intros [H|[H|H]]; discriminate.. | discriminate | discriminate|].
    apply bal_char; [intros [H|[H|H]]; discriminate.. | discriminate | discriminate|].
    apply (bal_string (bs "q") []); [|constructor]. apply qt_char; [discriminate | discriminate | constructor].
Qed.
Example C23_case :
  get (render fdoc) (bs "a.#(x=""q"")|z|@this") = (v <- get (render fdoc) (bs "a.#(x=""q"")") ;; v_get v (bs "z|@this")) /\
  exists v, get (render fdoc) (bs "a.#(x=""q"")|z|@this") = Ok v /\ v_json v = bs "null".
Proof.
  split; [apply (C23_pipe [bs "a"; bs "#(x=""q"")"] (bs "z|@this") (render fdoc)); [discriminate | exact C23_comps]|].
  eexists. split; [vm_compute; reflexivity|]. vm_compute. reflexivity.
Qed.

(** C24: the dot composes lookups, when the first key occurs at most once as a
    string of the document, or the dotted path can be followed, or the first key
    leads to a scalar, or nowhere.  (Missing for the full claim: the first key
    leads to an object or array without the second one and occurs again later;
    see [C24_refuted].) *)
Theorem C24_dot_partial : forall w1 c w2 a b, ws w1 -> wf c ->
  plain_key a -> a <> [] -> plain_key b -> b <> [] ->
  at_most_once a c \/ (exists d, reaches c [a; b] d) \/ (exists d, reaches c [a] d /\ scalar d) \/ (forall d, ~ reaches c [a] d) ->
  exists v1 v x, get (w1 ++ render c ++ w2) (dotted [a; b]) = Ok v1 /\
    get (w1 ++ render c ++ w2) a = Ok v /\ v_get v b = Ok x /\ agree v1 x.
Proof. exact get_dot. Qed.
Print Assumptions C24_dot_partial.
Example C24_case : exists v1 v x, get (render fdoc) (bs "a.1") = Ok v1 /\ get (render fdoc) (bs "a") = Ok v /\
  v_get v (bs "1") = Ok x /\ v_json v1 = v_json x /\ v_json x = bs "{""x"": ""q"",""z"": null}".
Proof.
  eexists. eexists. eexists. split; [vm_compute; reflexivity|]. split; [vm_compute; reflexivity|].
  split; [vm_compute; reflexivity|]. split; vm_compute; reflexivity.
Qed.
Example C24_case_hyp : at_most_once (bs "a") fdoc.
Proof. apply at_most_once_count. vm_compute. repeat constructor. Qed.
Theorem C24_refuted : exists c a b v1 v x, wf c /\ plain_key a /\ a <> [] /\ plain_key b /\ b <> [] /\
  get (render c) (dotted [a; b]) = Ok v1 /\ get (render c) a = Ok v /\ v_get v b = Ok x /\
  v_exists v1 = true /\ v_exists x = false.
Proof.
  exists rdoc, (bs "a"), (bs "b"). eexists. eexists. eexists. split; [apply wfb_wf; vm_compute; reflexivity|].
  split; [apply plain_ok; [discriminate|reflexivity]|]. split; [discriminate|].
  split; [apply plain_ok; [discriminate|reflexivity]|]. split; [discriminate|].
  split; [vm_compute; reflexivity|]. split; [vm_compute; reflexivity|]. split; [vm_compute; reflexivity|].
  split; vm_compute; reflexivity.
Qed.
Print Assumptions C24_refuted.

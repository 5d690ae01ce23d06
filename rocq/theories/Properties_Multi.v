(** Property C43: multipaths. *)
From Coq Require Import String List.
From Verif Require Import M_Base M_Util M_Value M_Valid M_Get S_Json S_Get S_Path S_Mod S_Multi
  P_Multi P_MultiDoc.
Import ListNotations.
Open Scope list_scope.

(** C43, arrays: [[p1,...,pn]] is the JSON array of the texts of the results that
    exist, in order; what follows the bracket is applied to this array.  For every
    byte string as document and all sub-paths in the sense of S_Multi. *)
Theorem C43_array : forall json es vs, Forall entry_ok es -> es <> [] ->
  Forall2 (fun e v => get json (snd e) = Ok v) es vs ->
  exists v, get json (multi_array es) = Ok v /\ v_exists v = true /\ v_kind v = KArray /\
    v_json v = bs "[" ++ commas (map v_json (filter v_exists vs)) ++ bs "]" /\
    forall s rest, s = 0x2E%N \/ s = 0x7C%N -> get json (multi_array es ++ s :: rest) = v_get v rest.
Proof. exact multi_array_result. Qed.
Print Assumptions C43_array.
(** If the results show pieces of documents, the array shows the array of them. *)
Theorem C43_array_shows : forall json es vs cs, Forall entry_ok es -> es <> [] ->
  Forall2 (fun e v => get json (snd e) = Ok v) es vs ->
  Forall2 (fun v c => wf c /\ shows v c) (filter v_exists vs) cs ->
  exists v, get json (multi_array es) = Ok v /\ shows v (array_of cs).
Proof. exact multi_array_shows. Qed.
Print Assumptions C43_array_shows.
(** C43, objects: [{name:path,...}] is the JSON object of the texts of the results that
    exist, under their names; [escape] is the function of properties C03 and C04. *)
Theorem C43_object : forall json es vs, Forall entry_ok es -> es <> [] ->
  Forall2 (fun e v => get json (snd e) = Ok v) es vs ->
  exists v ks, get json (multi_object es) = Ok v /\ v_exists v = true /\ v_kind v = KObject /\
    Forall2 entry_key es ks /\
    v_json v = bs "{" ++ commas (map (fun kv => escape (fst kv) ++ bs ":" ++ v_json (snd kv))
                                     (filter (fun kv => v_exists (snd kv)) (combine ks vs))) ++ bs "}" /\
    forall s rest, s = 0x2E%N \/ s = 0x7C%N -> get json (multi_object es ++ s :: rest) = v_get v rest.
Proof. exact multi_object_result. Qed.
Print Assumptions C43_object.
(** The key of an entry is determined by its text. *)
Theorem C43_key_unique : forall e k k', entry_key e k -> entry_key e k' -> k = k'.
Proof. exact entry_key_unique. Qed.
Print Assumptions C43_key_unique.

Definition doc2 : list N := bs "{""a"":[1,{""b"":""x""}], ""c d"":null}".
Example C43_case_text : multi_array [(None, bs "a.1.b"); (None, bs "a.#")] = bs "[a.1.b,a.#]" /\
  multi_object [(Some (bs "k"), bs "a.0"); (None, bs "a.#(b=""x"").b")] = bs "{k:a.0,a.#(b=""x"").b}".
Proof. split; reflexivity. Qed.
Example C43_case_ok : Forall entry_ok [(Some (bs "n1"), bs "a.0"); (None, bs "a.#(b=1).b")].
Proof.
  assert (P : forall l, forallb (fun c => negb (existsb (N.eqb c) [44; 58; 34; 92; 40; 91; 123; 41; 93; 125]))%N l = true -> forall t, sub_path t -> sub_path (l ++ t)).
  { induction l as [|c l IH]; intros H t Ht; [exact Ht|]. cbn [forallb] in H. apply andb_prop in H as [H1 H2]. cbn [app].
    apply P_Multi.sp_plain; [|apply IH; auto]. intros Hc. vm_compute in Hc.
    repeat (destruct Hc as [-> | Hc]; [discriminate|]). revert Hc. intros [Hc|Hc]; destruct Hc as [-> |[-> | ->]]; discriminate. }
  constructor; [|constructor; [|constructor]].
  - split; cbn [fst snd].
    + apply part_plain. reflexivity.
    + apply (P (bs "a.0") eq_refl []). constructor.
  - split; cbn [fst snd]; [exact I|]. apply (P (bs "a.#") eq_refl (bs "(b=1).b")).
    apply (pt_group false 40%N (bs "b=1") 41%N (bs ".b")).
    + left. reflexivity.
    + repeat (apply bal_char; [vm_compute; intuition discriminate | vm_compute; intuition discriminate | discriminate | discriminate |]). constructor.
    + left. reflexivity.
    + apply (P (bs ".b") eq_refl []). constructor.
Qed.
Example C43_case_array : exists v, get doc2 (bs "[a.0,zz,a.#(b=""x"").b,[c d]]") = Ok v /\ v_json v = bs "[1,""x"",[null]]".
Proof. eexists. split; [vm_compute; reflexivity|]. vm_compute. reflexivity. Qed.
Example C43_case_object : exists v, get doc2 (bs "{k\,1:a.0,zz,a.#(b=""x"").b,n:[c d],a.#}.n.0") = Ok v /\ v_json v = bs "null".
Proof. eexists. split; [vm_compute; reflexivity|]. vm_compute. reflexivity. Qed.
Example C43_case_keys : exists v, get doc2 (bs "{k\,1:a.0,zz,a.#(b=""x"").b,n:[c d],a.#}") = Ok v /\
  v_json v = bs "{""k\\,1"":1,""b"":""x"",""n"":[null],""_"":2}".
Proof. eexists. split; [vm_compute; reflexivity|]. vm_compute. reflexivity. Qed.

(** A name may have colons; the path begins behind the last one. *)
Example C43_case_colons : Forall entry_ok [(Some (bs "t:""a:b\""c"""), bs "a.0")] /\
  exists v, get doc2 (multi_object [(Some (bs "t:""a:b\""c"""), bs "a.0")]) = Ok v /\ v_json v = bs "{""t:\""a:b\\\""c\"""":1}".
Proof.
  split; [|eexists; split; [vm_compute; reflexivity | vm_compute; reflexivity]].
  constructor; [|constructor]. split; [|apply part_plain; reflexivity]. cbn [fst].
  apply (part_app true (bs "t:")); [apply part_plain; reflexivity|]. apply (pt_quoted true (bs "a:b\""c") []); [|apply pt_nil].
  do 3 (apply li_plain; [apply plainb_ok; reflexivity|]). apply li_esc. apply li_plain; [apply plainb_ok; reflexivity|]. apply li_nil.
Qed.

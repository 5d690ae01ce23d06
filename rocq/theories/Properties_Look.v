(** C80: where a path leads in a text that need not be JSON. *)
From Coq Require Import String List NArith ZArith.
From Verif Require Import M_Base M_Util M_Value M_Get S_Json S_Str S_Get S_Path S_Query S_Filter S_Follow S_Api S_Rough S_Decode S_Look P_Look.
Import ListNotations.
Open Scope list_scope.

(** For every text and every path of names, indexes and patterns joined by dots there is
    exactly one outcome of the search that S_Look.v describes ... *)
Theorem C80_one : forall s ks, Forall component ks -> Forall (fun k => k <> []) ks -> ks <> [] ->
  exists o, look 0 s ks o /\ (forall o', look 0 s ks o' -> o' = o).
Proof. exact look_one. Qed.
Print Assumptions C80_one.
(** ... and it is what get returns: the piece of the text with its text, its kind and its
    position, or a value that does not exist. *)
Theorem C80_get : forall s ks o, Forall component ks -> Forall (fun k => k <> []) ks -> ks <> [] -> look 0 s ks o ->
  exists v, get s (dotted ks) = Ok v /\ match o with Some p => is_piece v p | None => v_exists v = false end.
Proof. exact look_get. Qed.
Print Assumptions C80_get.

(** A text that begins like an array: its pieces are what C75 describes.  The hash counts
    them. *)
Theorem C80_count : forall w r (ps : list piece), Forall (fun c => (c <= 0x20)%N) w -> pieces (S (length w)) r ps ->
  exists v, get (w ++ 0x5B%N :: r) [0x23%N] = Ok v /\ shows v (CNum (v_json v)) /\
    int_literal (v_json v) (Z.of_nat (length ps)) /\ number (v_json v).
Proof. exact look_count. Qed.
Print Assumptions C80_count.
(** A path behind the hash is looked up in each piece; what exists is put together. *)
Theorem C80_each : forall w r (ps : list piece) ks (res : text -> value), Forall (fun c => (c <= 0x20)%N) w -> pieces (S (length w)) r ps ->
  Forall any_comp ks -> ks <> [] -> (forall p, In p ps -> get (piece_text p) (dotted ks) = Ok (res (piece_text p))) ->
  exists v, get (w ++ 0x5B%N :: r) (0x23%N :: 0x2E%N :: dotted ks) = Ok v /\ v_exists v = true /\ v_kind v = KArray /\
    v_json v = 0x5B%N :: commas (map v_json (filter v_exists (map (fun p => res (piece_text p)) ps))) ++ [0x5D%N].
Proof. exact look_each. Qed.
Print Assumptions C80_each.
(** A query selects the first piece that satisfies it alone ... *)
Theorem C80_first : forall w r (ps : list piece) q, Forall (fun c => (c <= 0x20)%N) w -> pieces (S (length w)) r ps -> balanced q ->
  (forall a p b, ps = a ++ p :: b -> Forall (fun x => picks q (piece_text x) false) a -> picks q (piece_text p) true ->
     exists v, get (w ++ 0x5B%N :: r) (qcomp q false) = Ok v /\ is_piece v p) /\
  (Forall (fun x => picks q (piece_text x) false) ps ->
     exists v, get (w ++ 0x5B%N :: r) (qcomp q false) = Ok v /\ v_exists v = false).
Proof. exact look_first. Qed.
Print Assumptions C80_first.
(** ... or, with the second hash, all of them ... *)
Theorem C80_all : forall w r (ps : list piece) q (sel : text -> bool), Forall (fun c => (c <= 0x20)%N) w -> pieces (S (length w)) r ps -> balanced q ->
  (forall p, In p ps -> picks q (piece_text p) (sel (piece_text p))) ->
  exists v, get (w ++ 0x5B%N :: r) (qcomp q true) = Ok v /\ v_exists v = true /\ v_kind v = KArray /\
    v_json v = 0x5B%N :: commas (filter sel (map piece_text ps)) ++ [0x5D%N].
Proof. exact look_all. Qed.
Print Assumptions C80_all.
(** ... and a path behind that is looked up in each of these. *)
Theorem C80_all_each : forall w r (ps : list piece) q (sel : text -> bool) ks (res : text -> value), Forall (fun c => (c <= 0x20)%N) w ->
  pieces (S (length w)) r ps -> balanced q -> Forall any_comp ks -> ks <> [] ->
  (forall p, In p ps -> picks q (piece_text p) (sel (piece_text p))) ->
  (forall p, In p ps -> sel (piece_text p) = true -> get (piece_text p) (dotted ks) = Ok (res (piece_text p))) ->
  exists v, get (w ++ 0x5B%N :: r) (qcomp q true ++ 0x2E%N :: dotted ks) = Ok v /\ v_exists v = true /\ v_kind v = KArray /\
    v_json v = 0x5B%N :: commas (map v_json (filter v_exists (map res (filter sel (map piece_text ps))))) ++ [0x5D%N].
Proof. exact look_all_each. Qed.
Print Assumptions C80_all_each.

(** A text that is cut off and badly punctuated. *)
Definition ldoc : list N := bs " {""a"" 5 ""b"": : [""x"" 7,,{""c"":""d"" ,".
Lemma ldoc_look : look 0 ldoc [bs "b"; bs "1"] (Some (20, bs "7", KNumber)).
Proof.
  change ldoc with ([0x20%N] ++ bs "{""a"" 5 ""b"": : [""x"" 7,,{""c"":""d"" ,"). eapply lk_found; [repeat constructor; discriminate|].
  change (bs "{""a"" 5 ""b"": : [""x"" 7,,{""c"":""d"" ,") with (0x7B%N :: bs """a"" 5 ""b"": : [""x"" 7,,{""c"":""d"" ,"). apply in_object.
  eapply (am_other _ _ (bs "a") _ (bs "5") KNumber (bs " ""b"": : [""x"" 7,,{""c"":""d"" ,")).
  - apply (member_at _ (bs "a") (bs " ") (bs "5 ""b"": : [""x"" 7,,{""c"":""d"" ,")); [repeat constructor; discriminate|constructor; [left; discriminate|constructor]|].
    intros c r [= <- _] [H|H]; [vm_compute in H; congruence|discriminate].
  - intros (n & [(H & _)|(_ & ->)] & G); [cbn in H; intuition discriminate|]. cbn in G. inversion G; congruence.
  - constructor; [left; split; discriminate|constructor|]. intros d r [= <- _] [H|H]; [destruct H as [H _]; vm_compute in H; congruence|cbn in H; intuition discriminate].
  - apply am_skip; [discriminate|discriminate|].
    eapply (am_enter _ _ (bs "b") _ (bs "[""x"" 7,,{""c"":""d"" ,")).
    + apply (member_at _ (bs "b") (bs ": : ") (bs "[""x"" 7,,{""c"":""d"" ,")); [repeat constructor; discriminate| |].
      * repeat (constructor; [unfold gap_byte; first [left; discriminate|right; reflexivity]|]). constructor.
      * intros c r [= <- _] [H|H]; [vm_compute in H; congruence|discriminate].
    + exists (bs "b"). split; [right; split; [cbn; intuition discriminate|reflexivity]|]. cbn. repeat constructor; discriminate.
    + discriminate.
    + exists 0x5B%N. eexists. split; [reflexivity|]. right. reflexivity.
    + refine (in_array _ (bs """x"" 7,,{""c"":""d"" ,") (bs "1") 1 [] [(16, bs """x""", KString); (20, bs "7", KNumber)] _ _).
      * apply P_Follow.index_key_iff. reflexivity.
      * change (bs """x"" 7,,{""c"":""d"" ,") with (quoted (bs "x") ++ bs " 7,,{""c"":""d"" ,"). change (bs """x""") with (quoted (bs "x")). apply pc_token; [apply tk_string; repeat constructor; discriminate|].
        apply pc_filler; [left; discriminate|]. refine (pc_token 20 (bs "7") KNumber (bs ",,{""c"":""d"" ,") [] _ _).
        { constructor; [left; split; discriminate|constructor|]. intros d r [= <- _] [H|H]; [destruct H as [H _]; vm_compute in H; congruence|cbn in H; intuition discriminate]. }
        apply pc_filler; [right; left; reflexivity|]. apply pc_filler; [right; left; reflexivity|].
        apply pc_stop; [|intros c r [= <- _] [H|[H|H]]; [vm_compute in H; congruence|discriminate|discriminate]].
        intros t k r Ht E. destruct (P_Rough.token_flat t k r Ht) as (i & Ei & _ & Hi). destruct (P_Rough.token_head t k r Ht) as (c & t' & -> & _).
        rewrite <- E in Ei. vm_compute in Ei. discriminate.
Qed.
Example C80_case : look 0 ldoc [bs "b"; bs "1"] (Some (20, bs "7", KNumber)) /\ dotted [bs "b"; bs "1"] = bs "b.1" /\
  (exists v, get ldoc (bs "b.1") = Ok v /\ v_json v = bs "7" /\ v_index v = Some 20) /\
  (exists v, get ldoc (bs "b.c") = Ok v /\ v_exists v = false) /\
  (exists v, get (bs "{""a"":{""x"":1,""a"":{""b"":2") (bs "a.b") = Ok v /\ v_json v = bs "2") /\
  (exists v, get ldoc (bs "b.#") = Ok v /\ v_json v = bs "2") /\
  (exists v, get ldoc (bs "b.#(=7)") = Ok v /\ v_json v = bs "7").
Proof.
  split; [exact ldoc_look|]. split; [reflexivity|]. repeat split; eexists; (split; [vm_compute; reflexivity|]); repeat split; vm_compute; reflexivity.
Qed.

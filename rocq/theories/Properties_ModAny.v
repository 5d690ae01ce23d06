(** C81: what the modifiers and ugly() make of a text that need not be JSON. *)
From Coq Require Import String List NArith.
From Verif Require Import M_Base M_Util M_Value M_Pretty M_Get S_Json S_Path S_Mod S_Rough S_Look S_ModAny P_ModAny.
Import ListNotations.
Open Scope list_scope.

(** ugly() drops the blanks outside of strings, and nothing else, of any text; what it
    returns it leaves alone. *)
Theorem C81_ugly : forall s t, ugly s = Ok t <-> bared s t.
Proof. exact ugly_bared. Qed.
Print Assumptions C81_ugly.
Theorem C81_ugly_settles : forall s, exists t, ugly s = Ok t /\ ugly t = Ok t.
Proof. exact ugly_settles. Qed.
Print Assumptions C81_ugly_settles.
Theorem C81_ugly_modifier : forall s t arg, bared s t -> arg_ok arg ->
  exists v x, get s (modifier n_ugly arg) = Ok v /\ parse t = Ok x /\ same_value v x.
Proof. exact any_ugly. Qed.
Print Assumptions C81_ugly_modifier.

(** @this is parse(). *)
Theorem C81_this : forall s arg, arg_ok arg -> exists v x, get s (modifier n_this arg) = Ok v /\ parse s = Ok x /\ same_value v x.
Proof. exact any_this. Qed.
Print Assumptions C81_this.

(** @reverse of a text that begins like an array: its pieces (C75) in reverse order ... *)
Theorem C81_reverse_array : forall w r (ps : list piece) arg, Forall (fun c => (c <= 0x20)%N) w -> pieces 1 r ps -> arg_ok arg ->
  exists v, get (w ++ 0x5B%N :: r) (modifier n_reverse arg) = Ok v /\ v_exists v = true /\
    v_json v = 0x5B%N :: commas (rev (map piece_text ps)) ++ [0x5D%N] /\ v_kind v = KArray.
Proof. exact any_reverse_array. Qed.
Print Assumptions C81_reverse_array.
(** ... like an object: the pieces two by two, each pair with what stands between ... *)
Theorem C81_reverse_object : forall w r (ps : list piece) arg, Forall (fun c => (c <= 0x20)%N) w -> pieces 1 r ps -> arg_ok arg ->
  exists v, get (w ++ 0x7B%N :: r) (modifier n_reverse arg) = Ok v /\ v_exists v = true /\
    v_json v = 0x7B%N :: commas (rev (map (stretch (0x7B%N :: r)) (two_by_two ps))) ++ [0x7D%N] /\ v_kind v = KObject.
Proof. exact any_reverse_object. Qed.
Print Assumptions C81_reverse_object.
(** ... and of any other text what parse() makes of it. *)
Theorem C81_reverse_other : forall s arg,
  (forall w c r, Forall (fun c => (c <= 0x20)%N) w -> c = 0x7B%N \/ c = 0x5B%N -> s <> w ++ c :: r) -> arg_ok arg ->
  exists v x, get s (modifier n_reverse arg) = Ok v /\ parse s = Ok x /\ v_json v = v_json x /\ v_exists v = v_exists x /\
    (v_exists x = true -> v_kind v = v_kind x).
Proof. exact any_reverse_other. Qed.
Print Assumptions C81_reverse_other.

(** @flatten of a text that begins like an array: arrays among the pieces stand for what is
    between their brackets, and nothing is left of those that are empty ... *)
Theorem C81_flatten : forall w r (ps : list piece) arg dv, Forall (fun c => (c <= 0x20)%N) w -> pieces 1 r ps -> arg_ok arg ->
  get (arg_text arg) (bs "deep") = Ok dv -> v_bool dv = Ok false ->
  exists v, get (w ++ 0x5B%N :: r) (modifier n_flatten arg) = Ok v /\ v_exists v = true /\
    v_json v = 0x5B%N :: commas (filter non_empty (map laid_open ps)) ++ [0x5D%N] /\ v_kind v = KArray.
Proof. exact any_flatten. Qed.
Print Assumptions C81_flatten.
(** ... and with deep for their pieces, down to those that are not arrays. *)
Theorem C81_flatten_deep : forall w r (ps : list piece) ts arg dv, Forall (fun c => (c <= 0x20)%N) w -> pieces 1 r ps -> leaves ps ts -> arg_ok arg ->
  get (arg_text arg) (bs "deep") = Ok dv -> v_bool dv = Ok true ->
  exists v, get (w ++ 0x5B%N :: r) (modifier n_flatten arg) = Ok v /\ v_exists v = true /\
    v_json v = 0x5B%N :: commas ts ++ [0x5D%N] /\ v_kind v = KArray.
Proof. exact any_flatten_deep. Qed.
Print Assumptions C81_flatten_deep.
Theorem C81_leaves : forall n s (ps : list piece), pieces n s ps -> exists ts, leaves ps ts.
Proof. exact leaves_one. Qed.
Print Assumptions C81_leaves.

(** @join of a text that begins like an array: the members of the objects among the pieces;
    of those of one name the first spelling, its place and the last value ... *)
Theorem C81_join : forall w r (ps : list piece) fs arg dv, Forall (fun c => (c <= 0x20)%N) w -> pieces 1 r ps -> fields ps fs -> arg_ok arg ->
  get (arg_text arg) (bs "preserve") = Ok dv -> v_bool dv = Ok false ->
  exists v, get (w ++ 0x5B%N :: r) (modifier n_join arg) = Ok v /\ v_exists v = true /\
    v_json v = 0x7B%N :: commas (map field_text (fold_left put fs [])) ++ [0x7D%N] /\ v_kind v = KObject.
Proof. exact any_join. Qed.
Print Assumptions C81_join.
Theorem C81_fields : forall n s (ps : list piece), pieces n s ps -> exists fs, fields ps fs /\ (forall fs', fields ps fs' -> fs' = fs).
Proof. exact fields_one. Qed.
Print Assumptions C81_fields.
(** ... and with preserve what is between the braces of these objects. *)
Theorem C81_join_kept : forall w r (ps : list piece) arg dv, Forall (fun c => (c <= 0x20)%N) w -> pieces 1 r ps -> arg_ok arg ->
  get (arg_text arg) (bs "preserve") = Ok dv -> v_bool dv = Ok true ->
  exists v, get (w ++ 0x5B%N :: r) (modifier n_join arg) = Ok v /\ v_exists v = true /\
    v_json v = 0x7B%N :: commas (map (fun p => between (piece_text p)) (filter is_object ps)) ++ [0x7D%N] /\ v_kind v = KObject.
Proof. exact any_join_kept. Qed.
Print Assumptions C81_join_kept.

(** @flatten and @join of any other text: what parse() makes of it. *)
Theorem C81_other : forall s name arg, (forall w r, Forall (fun c => (c <= 0x20)%N) w -> s <> w ++ 0x5B%N :: r) ->
  name = n_flatten \/ name = n_join -> arg_ok arg ->
  exists v x, get s (modifier name arg) = Ok v /\ parse s = Ok x /\ same_value v x.
Proof. exact any_other. Qed.
Print Assumptions C81_other.

(** A text that is cut off and badly punctuated. *)
Definition mtext : list N := bs "[1 ,]{""a"" 2 ""a"":3}[ [] x".
Definition mpieces : list piece := [(1, bs "[1 ,]", KArray); (6, bs "{""a"" 2 ""a"":3}", KObject)].
Lemma mtext_pieces : pieces 1 mtext mpieces.
Proof.
  refine (pc_token 1 (bs "[1 ,]") KArray (bs "{""a"" 2 ""a"":3}[ [] x") _ _ _); [eapply token_by; [vm_compute; reflexivity|discriminate|reflexivity]|].
  refine (pc_token 6 (bs "{""a"" 2 ""a"":3}") KObject (bs "[ [] x") _ _ _); [eapply token_by; [vm_compute; reflexivity|discriminate|reflexivity]|].
  apply stop_by; [reflexivity|]. intros c r [= <- _] [H|[H|H]]; [vm_compute in H; congruence|discriminate|discriminate].
Qed.
Lemma one_pieces : pieces 1 (bs "1 ,]") [(1, bs "1", KNumber)].
Proof.
  refine (pc_token 1 (bs "1") KNumber (bs " ,]") _ _ _); [eapply token_by; [vm_compute; reflexivity|discriminate|reflexivity]|].
  apply pc_filler; [left; discriminate|]. apply pc_filler; [right; left; reflexivity|]. apply pc_close. right. reflexivity.
Qed.
Lemma member_pieces : pieces 1 (bs """a"" 2 ""a"":3}") [(1, bs """a""", KString); (5, bs "2", KNumber); (7, bs """a""", KString); (11, bs "3", KNumber)].
Proof.
  refine (pc_token 1 (bs """a""") KString (bs " 2 ""a"":3}") _ _ _); [eapply token_by; [vm_compute; reflexivity|discriminate|reflexivity]|].
  apply pc_filler; [left; discriminate|].
  refine (pc_token 5 (bs "2") KNumber (bs " ""a"":3}") _ _ _); [eapply token_by; [vm_compute; reflexivity|discriminate|reflexivity]|].
  apply pc_filler; [left; discriminate|].
  refine (pc_token 7 (bs """a""") KString (bs ":3}") _ _ _); [eapply token_by; [vm_compute; reflexivity|discriminate|reflexivity]|].
  apply pc_filler; [right; right; reflexivity|].
  refine (pc_token 11 (bs "3") KNumber (bs "}") _ _ _); [eapply token_by; [vm_compute; reflexivity|discriminate|reflexivity]|].
  apply pc_close. left. reflexivity.
Qed.
Lemma mtext_leaves : leaves mpieces [bs "1"; bs "{""a"" 2 ""a"":3}"].
Proof.
  refine (lv_array 1 (bs "1 ,]") _ [bs "1"] _ [bs "{""a"" 2 ""a"":3}"] one_pieces _ _).
  - apply lv_piece; [discriminate|constructor].
  - apply lv_piece; [discriminate|constructor].
Qed.
Lemma mtext_fields : fields mpieces [(bs """a""", bs "a", bs "2"); (bs """a""", bs "a", bs "3")].
Proof.
  apply fl_other; [discriminate|]. refine (fl_object 6 (bs """a"" 2 ""a"":3}") _ [(bs """a""", bs "a", bs "2"); (bs """a""", bs "a", bs "3")] [] [] member_pieces _ fl_nil).
  assert (Q : forall n, stands_for (n, bs """a""", KString) (bs "a")).
  { intros n. refine (sf_string n (bs "a") (bs "a") _ _); [repeat constructor; discriminate|]. right. split; [cbn; intuition discriminate|reflexivity]. }
  repeat constructor; apply Q.
Qed.
Example C81_case : pieces 1 mtext mpieces /\ leaves mpieces [bs "1"; bs "{""a"" 2 ""a"":3}"] /\
  fields mpieces [(bs """a""", bs "a", bs "2"); (bs """a""", bs "a", bs "3")] /\
  map field_text (fold_left put [(bs """a""", bs "a", bs "2"); (bs """a""", bs "a", bs "3")] []) = [bs """a"":3"] /\
  map laid_open mpieces = [bs "1 ,"; bs "{""a"" 2 ""a"":3}"] /\
  (exists v, get (bs " [" ++ mtext) (bs "@reverse") = Ok v /\ v_json v = bs "[{""a"" 2 ""a"":3},[1 ,]]") /\
  (exists v, get (bs " {""a"" 2 ""a"":3,4") (bs "@reverse") = Ok v /\ v_json v = bs "{""a"":3,""a"" 2}") /\
  (exists v, get (bs " [" ++ mtext) (bs "@flatten") = Ok v /\ v_json v = bs "[1 ,,{""a"" 2 ""a"":3}]") /\
  (exists v, get (bs " [" ++ mtext) (bs "@flatten:{""deep"":true}") = Ok v /\ v_json v = bs "[1,{""a"" 2 ""a"":3}]") /\
  (exists v, get (bs " [" ++ mtext) (bs "@join") = Ok v /\ v_json v = bs "{""a"":3}") /\
  (exists v, get (bs " [" ++ mtext) (bs "@join:{""preserve"":true}") = Ok v /\ v_json v = bs "{""a"" 2 ""a"":3}") /\
  (exists dv, get (bs "{""deep"":true}") (bs "deep") = Ok dv /\ v_bool dv = Ok true) /\
  modifier n_flatten (Some (bs "{""deep"":true}")) = bs "@flatten:{""deep"":true}" /\
  ugly (bs "[ 1 , ""a b"" x ""c d") = Ok (bs "[1,""a b""x""c d").
Proof.
  split; [exact mtext_pieces|]. split; [exact mtext_leaves|]. split; [exact mtext_fields|]. split; [reflexivity|]. split; [reflexivity|].
  repeat split; try reflexivity; eexists; (split; [vm_compute; reflexivity|]); vm_compute; reflexivity.
Qed.

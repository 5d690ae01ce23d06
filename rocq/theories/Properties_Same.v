(** Property C56: the whitespace of the document does not influence lookups. *)
From Coq Require Import String List.
From Verif Require Import M_Base M_Util M_Num M_Value M_Valid M_Get M_Pretty S_Json S_Tree S_Get S_Api S_Taken S_Alike P_Rel.
Import ListNotations.
Open Scope list_scope.

(** C56.  [reads s t] (S_Tree): the text [s] is valid JSON and spells the token tree [t],
    which has every string and number as it is spelt and no whitespace.  Two texts that
    spell the same tree give the same answers to the same calls: see [taken2] and [same]
    in S_Alike. *)
Theorem C56_whitespace : forall s s' t v v', reads s t -> reads s' t -> taken2 s s' v v' -> same v v'.
Proof. exact taken2_same. Qed.
Print Assumptions C56_whitespace.
(** [get] returns on both. *)
Theorem C56_get : forall s s' t p, reads s t -> reads s' t -> tame p ->
  exists v v', get s p = Ok v /\ get s' p = Ok v' /\ same v v'.
Proof. exact get_same. Qed.
Print Assumptions C56_get.
(** In particular, looking up in the output of [ugly] is looking up in its input. *)
Theorem C56_ugly : forall s u p, valid s = Ok true -> ugly s = Ok u -> tame p ->
  exists v v', get s p = Ok v /\ get u p = Ok v' /\ same v v'.
Proof. exact get_same_ugly. Qed.
Print Assumptions C56_ugly.
(** Without [tame] this is false: flatten keeps the whitespace of an empty array, and its
    result is then not valid JSON. *)
Theorem C56_excluded : exists s u v v', valid s = Ok true /\ ugly s = Ok u /\
  get s (bs "@flatten|@valid") = Ok v /\ get u (bs "@flatten|@valid") = Ok v' /\
  v_exists v = false /\ v_json v' = bs "[1]".
Proof.
  exists (bs "[[ ],[1]]"), (bs "[[],[1]]"). eexists. eexists.
  split; [vm_compute; reflexivity|]. split; [vm_compute; reflexivity|].
  split; [vm_compute; reflexivity|]. split; [vm_compute; reflexivity|]. split; vm_compute; reflexivity.
Qed.
Print Assumptions C56_excluded.

(** A document with whitespace everywhere, and a path with a query, a multipath and
    modifiers. *)
Example C56_case : let s := bs " { ""a"" : [ { ""b"" : 1 , ""c"" : [ 1 , ""x y"" ] } , { ""b"" : 2 } ] } " in
  let u := bs "{""a"":[{""b"":1,""c"":[1,""x y""]},{""b"":2}]}" in
  let p := bs "a|@reverse|#(b<2)#|{n:0.b,l:0.c|@pretty}" in
  ugly s = Ok u /\ exists v v', get s p = Ok v /\ get u p = Ok v' /\
  v_json v' = bs "{""n"":1,""l"":[1, ""x y""]
}" /\ v_json v = v_json v' /\ v_kind v = KObject.
Proof.
  split; [vm_compute; reflexivity|]. eexists. eexists.
  split; [vm_compute; reflexivity|]. split; [vm_compute; reflexivity|]. split; [vm_compute; reflexivity|]. split; vm_compute; reflexivity.
Qed.
Example C56_case_tame : tame (bs "a|@reverse|#(b<2)#|{n:0.b,l:0.c|@pretty}").
Proof. unfold tame. repeat split; apply not_contains; vm_compute; reflexivity. Qed.

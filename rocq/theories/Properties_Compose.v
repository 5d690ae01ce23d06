(** C23, C24 for whole paths: components, modifiers and multipaths together. *)
From Coq Require Import String List.
From Verif Require Import M_Base M_Util M_Value M_Path M_Get S_Json S_Path S_Mod S_Multi S_Compose P_Compose P_Mixed.
Import ListNotations.
Open Scope list_scope.

(** C23: a pipe after any path composes the lookups; what follows is arbitrary. *)
Theorem C23_whole : forall a, whole a -> forall json B,
  get json (a ++ 0x7C%N :: B) = (v <- get json a ;; v_get v B).
Proof. exact get_whole. Qed.
Print Assumptions C23_whole.
Theorem C23_whole_value : forall a, whole a -> forall u B,
  v_get u (a ++ 0x7C%N :: B) = (v <- v_get u a ;; v_get v B).
Proof. exact v_get_whole. Qed.
Print Assumptions C23_whole_value.
(** The paths considered are closed under the pipe and the dot. *)
Theorem C23_whole_pipe : forall a, whole a -> forall b, whole b -> whole (a ++ 0x7C%N :: b).
Proof. exact whole_pipe. Qed.
Print Assumptions C23_whole_pipe.
Theorem C23_whole_dot : forall a, whole a -> forall b, whole b -> whole (a ++ 0x2E%N :: b).
Proof. exact whole_dot. Qed.
Print Assumptions C23_whole_dot.

(** After a modifier or multipath the dot means the same as the pipe: the rest of the
    path is looked up in the result. *)
Theorem C23_modifier : forall json m s B, stage m -> s = 0x2E%N \/ s = 0x7C%N ->
  get json (m ++ s :: B) = (v <- get json m ;; v_get v B).
Proof. exact get_stage. Qed.
Print Assumptions C23_modifier.

(** C24: before a modifier or multipath the dot composes without any condition on the
    document. *)
Theorem C24_modifier : forall json ks B, ks <> [] -> Forall one_comp ks -> staged B ->
  get json (dotted ks ++ 0x2E%N :: B) = (v <- get json (dotted ks) ;; v_get v B).
Proof. exact get_dot_stage. Qed.
Print Assumptions C24_modifier.

Definition cdoc : bytes := bs "{""a"":[{""x"":""p"",""z"":[1]},{""x"":""q"",""z"":[2,3]}],""b"":0}".
Lemma c_rev : stage (bs "@reverse").
Proof. apply (st_modifier (bs "reverse") None); [|exact I]. repeat constructor; discriminate. Qed.
Lemma c_multi : stage (bs "[0,1]").
Proof. apply (st_array (bs "0,1")). repeat (apply bal_char; [intros [H|[H|H]]; discriminate.. | discriminate | discriminate|]). constructor. Qed.
Lemma c_ones : Forall one_comp [bs "a"; bs "1"; bs "z"].
Proof.
  repeat (apply Forall_cons;
    [left; split; [split; [repeat constructor; discriminate | repeat split; discriminate] | discriminate]|]).
  constructor.
Qed.
Lemma c_staged : staged (bs "@reverse.[0,1]").
Proof.
  exists (bs "@reverse"), (bs ".[0,1]"). split; [exact c_rev|]. split; [|reflexivity]. right.
  exists 0x2E%N, (bs "[0,1]"). split; [reflexivity | left; reflexivity].
Qed.
Example C23_whole_case : whole (bs "a.#.z.@reverse.[0,1]") /\
  get cdoc (bs "a.#.z.@reverse.[0,1]|1") = (v <- get cdoc (bs "a.#.z.@reverse.[0,1]") ;; v_get v (bs "1")) /\
  exists v, get cdoc (bs "a.#.z.@reverse.[0,1]|1") = Ok v /\ v_json v = bs "[3,2]".
Proof.
  assert (H : whole (bs "a.#.z.@reverse.[0,1]")).
  { apply (wh_pieces [bs "a"; bs "#"; bs "z"; bs "@reverse"; bs "[0,1]"]); [discriminate|].
    pose proof c_ones as Ho. inversion Ho as [|? ? Ha Ho1]; subst. inversion Ho1 as [|? ? _ Ho2]; subst. inversion Ho2 as [|? ? Hz _]; subst.
    apply Forall_cons; [left; exact (one_any _ Ha)|]. apply Forall_cons; [left; right; left; reflexivity|].
    apply Forall_cons; [left; exact (one_any _ Hz)|]. apply Forall_cons; [right; exact c_rev|]. apply Forall_cons; [right; exact c_multi | constructor]. }
  split; [exact H|]. split; [exact (C23_whole _ H cdoc (bs "1"))|].
  eexists. split; [vm_compute; reflexivity|]. vm_compute. reflexivity.
Qed.
Example C23_modifier_case :
  get (bs "[1,2,3]") (bs "@reverse.0") = (v <- get (bs "[1,2,3]") (bs "@reverse") ;; v_get v (bs "0")) /\
  exists v, get (bs "[1,2,3]") (bs "@reverse.0") = Ok v /\ v_json v = bs "3".
Proof.
  split; [exact (C23_modifier (bs "[1,2,3]") (bs "@reverse") 0x2E%N (bs "0") c_rev (or_introl eq_refl))|].
  eexists. split; [vm_compute; reflexivity|]. vm_compute. reflexivity.
Qed.
Example C24_modifier_case :
  get cdoc (bs "a.1.z.@reverse.[0,1]") = (v <- get cdoc (bs "a.1.z") ;; v_get v (bs "@reverse.[0,1]")) /\
  exists v, get cdoc (bs "a.1.z.@reverse.[0,1]") = Ok v /\ v_json v = bs "[3,2]".
Proof.
  split; [exact (C24_modifier cdoc [bs "a"; bs "1"; bs "z"] (bs "@reverse.[0,1]") ltac:(discriminate) c_ones c_staged)|].
  eexists. split; [vm_compute; reflexivity|]. vm_compute. reflexivity.
Qed.

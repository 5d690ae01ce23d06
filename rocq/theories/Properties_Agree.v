(** Property C74: walking through a value and looking things up in it agree. *)
From Coq Require Import String List NArith ZArith.
From Verif Require Import M_Base M_Util M_Value M_Valid M_Get S_Json S_Get S_Path S_Api S_Taken S_Same P_Agree P_Taken.
Import ListNotations.
Open Scope list_scope.

(** C74: for an array taken from a valid document (C27 says what that is), the list
    array() gives has as many entries as get("#") says, get with an index below gives
    the entry of the list, with any other index nothing. *)
Theorem C74_array : forall s v l, valid s = Ok true -> taken s v -> v_kind v = KArray -> v_array v = Ok l ->
  (exists n, v_get v (bs "#") = Ok n /\ int_literal (v_json n) (Z.of_nat (length l))) /\
  (forall k i x, digits1 k -> digits_val k = Z.of_nat i -> (Z.of_nat i < 2 ^ 63)%Z -> nth_error l i = Some x ->
     exists y, v_get v k = Ok y /\ same_answers y x) /\
  (forall k i, digits1 k -> digits_val k = Z.of_nat i -> length l <= i -> exists y, v_get v k = Ok y /\ v_exists y = false).
Proof. exact agree_array. Qed.
Print Assumptions C74_array.

(** For an object: get with the name of a visited member gives the value that each()
    visits with that name first, and nothing for a name that is not visited.  (Names with
    a question mark cannot be written in a path, see C47; [record_args] puts what is
    visited in front of the list.) *)
Theorem C74_object : forall s v l, valid s = Ok true -> taken s v -> v_kind v = KObject -> v_each v record_args [] = Ok (rev l) ->
  (forall a k x b n, l = a ++ (k, x) :: b -> v_str k = Ok n -> ~ In 0x3F%N n -> (forall k' x', In (k', x') a -> v_str k' <> Ok n) ->
     exists y, v_get v (path_escape n) = Ok y /\ same_answers y x) /\
  (forall n, ~ In 0x3F%N n -> (forall k x, In (k, x) l -> v_str k <> Ok n) -> exists y, v_get v (path_escape n) = Ok y /\ v_exists y = false).
Proof. exact agree_object. Qed.
Print Assumptions C74_object.

(** An array and an object inside a document. *)
Definition adoc : list N := bs "{""x"": [ {""a.b"":1,""a.b"":[2], ""c"":3} , 4]}".
Example C74_case : valid adoc = Ok true /\ exists v l o m,
  get adoc (bs "x") = Ok v /\ taken adoc v /\ v_kind v = KArray /\ v_array v = Ok l /\ map v_json l = [bs "{""a.b"":1,""a.b"":[2], ""c"":3}"; bs "4"] /\
  v_get v (bs "0") = Ok o /\ taken adoc o /\ v_kind o = KObject /\ v_each o record_args [] = Ok (rev m) /\
  map (fun kx => (v_str (fst kx), v_json (snd kx))) m = [(Ok (bs "a.b"), bs "1"); (Ok (bs "a.b"), bs "[2]"); (Ok (bs "c"), bs "3")].
Proof.
  split; [vm_compute; reflexivity|].
  assert (T1 : exists v, get adoc (bs "x") = Ok v) by (eexists; vm_compute; reflexivity). destruct T1 as (v & E).
  assert (T2 : exists o, v_get v (bs "0") = Ok o) by (vm_compute in E; injection E as <-; eexists; vm_compute; reflexivity). destruct T2 as (o & Eo).
  assert (P : forall p, Forall (fun c => c <> 0x40%N) p -> tame p).
  { intros p Hp. unfold tame. repeat split; intros (a & b & ->); apply Forall_app in Hp as [_ Hp]; inversion Hp; congruence. }
  assert (Tv : taken adoc v) by (eapply tk_get; [|exact E]; apply P; repeat constructor; discriminate).
  assert (To : taken adoc o) by (eapply tk_vget; [exact Tv| |exact Eo]; apply P; repeat constructor; discriminate).
  assert (L : exists l, v_kind v = KArray /\ v_array v = Ok l /\ map v_json l = [bs "{""a.b"":1,""a.b"":[2], ""c"":3}"; bs "4"]).
  { vm_compute in E. injection E as <-. eexists. split; [vm_compute; reflexivity|]. split; vm_compute; reflexivity. }
  assert (M : exists l, v_kind o = KObject /\ v_each o record_args [] = Ok l /\
     map (fun kx => (v_str (fst kx), v_json (snd kx))) (rev l) = [(Ok (bs "a.b"), bs "1"); (Ok (bs "a.b"), bs "[2]"); (Ok (bs "c"), bs "3")]).
  { vm_compute in E. injection E as <-. vm_compute in Eo. injection Eo as <-. eexists. split; [vm_compute; reflexivity|]. split; vm_compute; reflexivity. }
  destruct L as (l & L1 & L2 & L3). destruct M as (m & M1 & M2 & M3). exists v, l, o, (rev m). rewrite rev_involutive.
  split; [exact E|]. split; [exact Tv|]. split; [exact L1|]. split; [exact L2|]. split; [exact L3|].
  split; [exact Eo|]. split; [exact To|]. split; [exact M1|]. split; [exact M2|exact M3].
Qed.

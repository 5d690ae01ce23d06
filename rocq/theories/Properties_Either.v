(** C91: a number in quotes converts like the number.  [num_text v s] (S_Conv.v): [v] is a
    number with the text [s], or a string that decodes to [s]. *)
From Coq Require Import ZArith String List.
From Coq.Floats Require Import SpecFloat.
From Verif Require Import M_Base M_Util M_Num M_Value M_Get S_Json S_Str S_Get S_Num S_Conv P_Either.
From Verif Require P_Wf.
Import ListNotations.
Open Scope list_scope.

(** Whatever the text is, and however the string is spelled: *)
Theorem C91_convert : forall u v s, num_text u s -> num_text v s ->
  (exists x, v_f64 u = Ok x /\ v_f64 v = Ok x) /\ (exists x, v_f32 u = Ok x /\ v_f32 v = Ok x) /\
  Forall (fun f : value -> M_Base.R Z => exists i, f u = Ok i /\ f v = Ok i) [v_i64; v_i32; v_i16; v_i8; v_u64; v_u32; v_u16; v_u8].
Proof. exact either_way. Qed.
Print Assumptions C91_convert.
(** For JSON numbers bool() agrees as well, though for strings it goes by the spelling ... *)
Theorem C91_bool : forall u v n b, number n -> shows u (CNum n) -> shows v (CStr b) -> v_str v = Ok n -> exists x, v_bool u = Ok x /\ v_bool v = Ok x.
Proof. exact either_bool. Qed.
Print Assumptions C91_bool.
(** ... and str() is the same, but the two are not equal: the number comes first. *)
Theorem C91_apart : forall u v n b, shows u (CNum n) -> shows v (CStr b) -> v_str v = Ok n ->
  v_str u = v_str v /\ v_cmp u v = Ok Lt /\ v_eq u v = Ok false.
Proof.
  intros u v n b Hu Hv Hs. pose proof (sh_kind _ _ Hu) as K. pose proof (sh_kind _ _ Hv) as K'. cbn in K, K'.
  assert (C : v_cmp u v = Ok Lt) by (unfold v_cmp; rewrite K, K'; reflexivity).
  split; [rewrite Hs; unfold v_str; rewrite K, (sh_json _ _ Hu); reflexivity|]. split; [exact C|]. unfold v_eq. rewrite C. reflexivity.
Qed.
Print Assumptions C91_apart.

(** [-12.5e1] as a number and in quotes, the minus sign spelled with an escape. *)
Definition edoc : list N := bs "{""a"":-12.5e1,""b"":""\u002d12.5e1""}".
Example C91_case : exists u v, get edoc (bs "a") = Ok u /\ get edoc (bs "b") = Ok v /\ number (bs "-12.5e1") /\ shows u (CNum (bs "-12.5e1")) /\
  shows v (CStr (bs "\u002d12.5e1")) /\ v_str v = Ok (bs "-12.5e1") /\ num_text u (bs "-12.5e1") /\ num_text v (bs "-12.5e1") /\
  v_i64 u = Ok (-125)%Z /\ v_i64 v = Ok (-125)%Z /\ v_i8 v = Ok (-125)%Z /\ v_u8 v = Ok 0%Z /\ v_bool v = Ok true.
Proof.
  assert (P : exists u v, get edoc (bs "a") = Ok u /\ get edoc (bs "b") = Ok v) by (do 2 eexists; split; vm_compute; reflexivity).
  destruct P as (u & v & Eu & Ev). exists u, v. split; [exact Eu|]. split; [exact Ev|]. vm_compute in Eu, Ev. injection Eu as <-. injection Ev as <-.
  split; [pose proof (P_Wf.wfb_wf (CNum (bs "-12.5e1")) ltac:(vm_compute; reflexivity)) as W; inversion W; assumption|].
  split; [constructor; vm_compute; reflexivity|].
  match goal with |- ?A /\ _ => assert (S : A) by (constructor; vm_compute; reflexivity) end. split; [exact S|].
  match goal with |- ?A /\ _ => assert (T : A) by (vm_compute; reflexivity) end. split; [exact T|].
  split; [apply nt_number; reflexivity|]. split; [exact (nt_string _ _ _ S T)|]. repeat (split; [vm_compute; reflexivity|]). vm_compute. reflexivity.
Qed.

(** A number in quotes converts like the number. *)
From Coq Require Import ZArith String List Lia.
From Coq.Floats Require Import SpecFloat.
From Verif Require Import M_Base M_Util M_Num M_Value M_Get S_Json S_Str S_Get S_Num S_Conv P_Base P_Num P_Order P_Doc.
Import ListNotations. Open Scope list_scope.

Theorem either_way u v s : num_text u s -> num_text v s ->
  (exists x, v_f64 u = Ok x /\ v_f64 v = Ok x) /\ (exists x, v_f32 u = Ok x /\ v_f32 v = Ok x) /\
  Forall (fun f : value -> M_Base.R Z => exists i, f u = Ok i /\ f v = Ok i) [v_i64; v_i32; v_i16; v_i8; v_u64; v_u32; v_u16; v_u8].
Proof.
  intros Hu Hv. destruct (num_text_raw u s Hu) as (A & B & C). destruct (num_text_raw v s Hv) as (A' & B' & C').
  split; [eexists; split; [exact A|exact A']|]. split; [unfold v_f32; rewrite A, A'; eexists; split; reflexivity|].
  unfold v_i32, v_i16, v_i8, v_u32, v_u16, v_u8. repeat (constructor; [cbv beta; rewrite ?B, ?B', ?C, ?C'; cbn [bind]; eexists; split; reflexivity|]). constructor.
Qed.
Theorem either_bool u v n b : number n -> shows u (CNum n) -> shows v (CStr b) -> v_str v = Ok n -> exists x, v_bool u = Ok x /\ v_bool v = Ok x.
Proof.
  intros Hn Hu Hv Hs. pose proof (sh_kind _ _ Hu) as K. cbn in K. pose proof (sh_json _ _ Hu) as J. cbn in J.
  assert (Nu : num_text u n) by (rewrite <- J; apply nt_number, K). destruct (num_text_raw u n Nu) as (_ & B & _).
  destruct (num_text_raw v n (nt_string v b n Hv Hs)) as (_ & B' & _).
  rewrite (bool_number u n _ Hn Hu B). destruct (bool_string v b Hv) as (x & E & T & F). rewrite B' in E. injection E as <-.
  exists (negb (raw_to_i64 n =? 0)%Z). split; [reflexivity|]. destruct (Z.eqb_spec (raw_to_i64 n) 0) as [E|E]; cbn [negb].
  - apply F. split; [|exact E]. intros W. rewrite (sh_str _ _ Hv) in Hs. cbn [text_of] in Hs.
    destruct (number_head n Hn) as (h & t & En & Hh). cbn [true_words In] in W.
    repeat (destruct W as [<-|W]; [vm_compute in Hs; injection Hs as <-; first [discriminate E | injection En as <- _; vm_compute in Hh; intuition congruence | vm_compute in E; discriminate E]|]). exact W.
  - apply T. right. exact E.
Qed.

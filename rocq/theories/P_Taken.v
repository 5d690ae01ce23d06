(** Everything taken from a valid document presents a piece of JSON. *)
From Verif Require Import P_Base P_Json P_Valid P_ValidSpec P_Str P_Glob P_Scan P_Each P_Doc P_Path P_LGet P_Parts P_Ext P_Total P_Value P_Num
  P_Key P_Find P_GetDoc P_GetArr P_Stream P_Closed P_Reach M_Util M_Num M_Scan M_Value M_Path M_Valid M_Get S_Json S_Get S_Path S_Api S_Follow S_Taken.

Lemma shows_presents v c : shows v c -> presents v c.
Proof.
  intros [H1 H2 H3 H4]. constructor; auto.
  - exists []. rewrite app_nil_r. repeat split; auto. constructor.
  - destruct c; auto; rewrite H4, H2; reflexivity.
Qed.
Lemma empty_absent v : v_json v = [] -> v_info v = 0%N -> absent v.
Proof.
  intros Hj Hi. assert (Hk : v_kind v = KNull) by (unfold v_kind; rewrite Hi; reflexivity).
  repeat split; auto; [unfold v_exists; rewrite Hj; reflexivity | unfold v_str; rewrite Hk; reflexivity].
Qed.

Lemma valid_doc json : valid json = Ok true -> exists w1 c w2, json = doc w1 c w2 /\ ws w1 /\ wf c /\ ws w2.
Proof. intros H. apply valid_true_iff in H. destruct H as (w1 & v & w2 & H1 & H2 & H3 & ->).
  apply json_value_cst in H2 as (c & Hc & <-). exists w1, c, w2. auto. Qed.

Lemma taken_returned json v : taken json v -> returned v.
Proof.
  induction 1; [eapply ret_parse | eapply ret_get | eapply ret_vget | eapply ret_key | eapply ret_value | eapply ret_elem]; eauto.
Qed.

Lemma visit_record {A} (f : A -> value * value) (l : list A) : forall st,
  visit (fun st x => record_args st (fst (f x)) (snd (f x))) st l = Ok (rev (map f l) ++ st).
Proof.
  induction l as [|a l IH]; intros st; cbn [visit map rev]; auto. unfold record_args at 1. rewrite IH, <- app_assoc.
  destruct (f a). reflexivity.
Qed.

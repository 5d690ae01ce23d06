(** Results on valid documents: validity and UTF-8 in terms of [valid]. *)
From Verif Require Import P_Base P_Json P_Valid P_ValidSpec P_Str P_Utf8 P_Scan P_Each P_Doc P_Total P_Value
  P_GetDoc P_Closed P_Taken P_GetUtf8 P_GetMod M_Util M_Value M_Valid M_Get S_Json S_Str S_Get S_Follow S_Taken S_Mod.

Lemma get_valid json p : valid json = Ok true -> no_modifier p ->
  exists v, get json p = Ok v /\ ((v_exists v = false /\ v_json v = []) \/ valid (v_json v) = Ok true).
Proof. intros Hv Hp. apply get_valid_tame; auto using no_modifier_tame. Qed.

Lemma doc_utf8 w1 c w2 : ws w1 -> wf c -> ws w2 -> utf8 (w1 ++ render c ++ w2) -> Forall utf8 (strings c).
Proof. intros H1 Hc H2 H8. rewrite utf8_ws_l, utf8_ws_r in H8 by auto. apply utf8_render; auto. Qed.
Lemma good_utf8 v fl : good (V utf8 fl) ws v -> utf8 (v_json v).
Proof.
  intros [_ [[-> _]|(c & w & Hc & [H8 _] & Hw & Hs)]]; [constructor|]. rewrite (sw_json _ _ _ Hs), utf8_ws_r by auto. apply utf8_render; auto.
Qed.
Lemma get_utf8_tame json p v : valid json = Ok true -> utf8 json -> utf8 p -> tame p -> get json p = Ok v -> utf8 (v_json v).
Proof.
  intros Hv H1 H2 Hp E. eapply (good_utf8 v false), get_tame8; eauto using tame_tamef.
  apply P_Taken.valid_doc in Hv as (w1 & c & w2 & -> & H3 & Hc & H4). apply dok_doc; auto. split; [|discriminate].
  eapply doc_utf8; [| | |exact H1]; auto.
Qed.
Lemma get_utf8_tight w1 c w2 p v : ws w1 -> wf c -> ws w2 -> tight c = true -> utf8 (w1 ++ render c ++ w2) -> utf8 p ->
  ~ contains p (64%N :: n_join ++ [58%N]) -> ~ contains p (64%N :: n_pretty ++ [58%N]) -> get (w1 ++ render c ++ w2) p = Ok v -> utf8 (v_json v).
Proof.
  intros H1 Hc H2 Ht H3 H4 P1 P2 E. eapply (good_utf8 v true), get_tame8; eauto.
  - split; [exact P2|]. split; [exact P1 | left; reflexivity].
  - apply dok_doc; auto. split; auto. exact (doc_utf8 w1 c w2 H1 Hc H2 H3).
Qed.

Lemma taken_str json v : valid json = Ok true -> taken json v ->
  (v_exists v = false /\ v_str v = Ok []) \/
  (exists c, wf c /\ v_kind v = kind_of c /\
     match kind_of c with
     | KArray | KObject => v_str v = Ok (v_json v)
     | _ => v_json v = render c /\ v_str v = text_of c
     end).
Proof.
  intros H1 H2. destruct (taken_presents json v H1 H2) as [(H3 & _ & _ & H4)|(c & Hc & [P1 P2 (w & Hw & Pj & Pw) P4])]; [left; auto|].
  right. exists c. split; auto. split; auto.
  destruct c; cbn [kind_of] in *; try exact P4; (split; [rewrite Pj, Pw by exact I; apply app_nil_r | exact P4]).
Qed.

Lemma get_not_utf8 : exists json p v, utf8 json /\ utf8 p /\ get json p = Ok v /\ ~ utf8 (v_json v).
Proof.
  exists [91; 116; 195; 169; 230; 151; 165; 93]%N, [48%N]. eexists. split; [|split; [|split; [vm_compute; reflexivity|]]].
  - apply utf8_ascii_cons; [lia|]. apply utf8_ascii_cons; [lia|].
    apply (utf8_cons 233%N); [left; lia|]. apply (utf8_cons 26085%N); [left; lia|]. apply utf8_ascii_cons; [lia|]. constructor.
  - apply utf8_ascii_cons; [lia|]. constructor.
  - intros H. change (utf8 [116; 195; 169; 230]%N) in H. apply utf8_ascii_cons in H; [|lia].
    apply (utf8_app_inv_l [195; 169]%N [230%N]) in H; [|apply (utf8_cons 233%N []); [left; lia | constructor]].
    inversion H as [|u t Hu Ht E]. destruct (utf8_enc_shape u Hu) as (h & r & E' & Hl & _). rewrite E' in E. cbn [app] in E.
    injection E as -> E. destruct r; [discriminate Hl | discriminate E].
Qed.

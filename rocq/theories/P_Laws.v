(** Laws of the modifiers. *)
From Coq Require Import String List NArith.
From Verif Require Import M_Base M_Util M_Num M_Value M_Valid M_Get M_Pretty S_Json S_Tree S_Layout S_Api S_Taken S_Alike S_Same S_Path S_Mod S_Multi S_Compose S_Get S_Run S_Laws.
From Verif Require Import P_Base P_Json P_Doc P_Pipe P_Compose P_Mixed P_Again P_Run P_Wf P_Total P_ModPretty P_ModDoc P_ModFlat P_ModJoin P_POut P_Rel P_Tree.
Import ListNotations.
Open Scope list_scope.
Open Scope nat_scope.

Lemma Ok_inj {A} (x y : A) : Ok x = Ok y -> x = y.
Proof. congruence. Qed.
Definition txt (s p r : bytes) : Prop := exists v, get s p = Ok v /\ v_json v = r.
Definition closed (p : bytes) : Prop := forall s c B, c = 46%N \/ c = 124%N -> get s (p ++ c :: B) = (v <- get s p ;; v_get v B).

Lemma closed_stage m : stage m -> closed m.
Proof. intros H s c B Hc. apply get_stage; auto. Qed.
Lemma closed_pipe a b : whole a -> closed b -> closed (a ++ 124%N :: b).
Proof.
  intros Ha Hb s c B Hc. rewrite <- app_assoc. cbn [app]. rewrite !get_whole by auto.
  destruct (get s a) as [v|e]; [|reflexivity]. cbn [bind]. apply v_get_compose. intros j. apply Hb, Hc.
Qed.

Lemma txt_pipe s a b r r' : whole a -> txt s a r -> txt r b r' -> txt s (a ++ 124%N :: b) r'.
Proof.
  intros Ha (v & Ev & <-) (w & Ew & <-). unfold txt. rewrite get_whole by auto. rewrite Ev. cbn [bind].
  pose proof (vget_text v b (ret_get _ _ _ Ev)) as L. rewrite Ew in L.
  destruct (v_get v b) as [x|e]; [|contradiction]. exists x. split; [reflexivity|]. apply L.
Qed.

Lemma same_vget a b p : returned a -> returned b -> v_json a = v_json b -> same_outcome (v_get a p) (v_get b p).
Proof.
  intros Ha Hb E. pose proof (vget_text a p Ha) as La. pose proof (vget_text b p Hb) as Lb. rewrite <- E in Lb.
  destruct (v_get a p) as [x|e], (get (v_json a) p) as [y|f], (v_get b p) as [z|g]; cbn in *; try contradiction; try congruence.
  eapply P_Again.same_trans; [exact La|]. apply P_Again.same_sym, Lb.
Qed.

Lemma alike_same s p q v w : closed p -> closed q -> get s p = Ok v -> get s q = Ok w -> same_answers v w -> alike s p q.
Proof.
  intros Cp Cq Ev Ew H b [->|(c & t & -> & Hc)].
  - rewrite !app_nil_r, Ev, Ew. exact H.
  - rewrite (Cp s c t Hc), (Cq s c t Hc), Ev, Ew. cbn [bind].
    apply same_vget; [eapply ret_get; eauto|eapply ret_get; eauto|apply H].
Qed.
Lemma alike_txt s p q r : closed p -> closed q -> txt s p r -> txt s q r -> r <> [] -> alike s p q.
Proof.
  intros Cp Cq (v & Ev & Jv) (w & Ew & Jw) Hr. apply (alike_same s p q v w Cp Cq Ev Ew).
  apply (text_decides v w); [eapply ret_get; eauto|eapply ret_get; eauto| |congruence].
  unfold v_exists. rewrite Jv. destruct r; [congruence|reflexivity].
Qed.
Lemma alike_sym s p q : alike s p q -> alike s q p.
Proof.
  intros H b Hb. specialize (H b Hb). destruct (get s (p ++ b)), (get s (q ++ b)); cbn in *; try contradiction; auto using P_Again.same_sym.
Qed.

(* ---------- the modifiers ---------- *)

Definition mUgly : bytes := bs "@ugly".
Definition mPretty : bytes := bs "@pretty".
Definition mRev : bytes := bs "@reverse".
Definition mThis : bytes := bs "@this".
Definition mValid : bytes := bs "@valid".
Definition mJoin : bytes := bs "@join".
Definition mDeep : bytes := bs "@flatten:{""deep"":true}".


Lemma piece_mod name arg : mod_name name -> arg_ok arg -> stage (modifier name arg).
Proof. intros. apply st_modifier; auto. Qed.
Lemma stage_simple name : forallb (fun c => negb ((c =? 46) || (c =? 124) || (c =? 58) || (c =? 92)))%N name = true -> stage (64%N :: name).
Proof. intros H. assert (S := st_modifier name None (plain_name _ H) I). unfold modifier in S. rewrite app_nil_r in S. exact S. Qed.
Lemma deep_arg : arg_ok (Some (bs "{""deep"":true}")).
Proof. apply (ma_json (CObj [] [Memb [] (bs "deep") [] [] CTrue []])); [|exact I]. apply wfb_wf. vm_compute. reflexivity. Qed.
Lemma stage_deep : stage mDeep.
Proof. exact (st_modifier (bs "flatten") (Some (bs "{""deep"":true}")) (plain_name (bs "flatten") eq_refl) deep_arg). Qed.
Lemma stage_whole m : stage m -> whole m.
Proof. intros H. apply whole_piece. right. exact H. Qed.

Lemma mod_txt name s r : forallb (fun c => negb ((c =? 46) || (c =? 124) || (c =? 58) || (c =? 92)))%N name = true ->
  modifies name None s r -> txt s (64%N :: name) r.
Proof. intros Hn H. assert (G := modifies_get name None s r (plain_name _ Hn) I H). unfold modifier in G. rewrite app_nil_r in G. exact G. Qed.
Lemma deep_txt s r : modifies (bs "flatten") (Some (bs "{""deep"":true}")) s r -> txt s mDeep r.
Proof. intros H. exact (modifies_get (bs "flatten") (Some (bs "{""deep"":true}")) s r (plain_name (bs "flatten") eq_refl) deep_arg H). Qed.

Lemma txt_ugly s t : reads s t -> txt s mUgly (minimal t).
Proof. intros H. apply mod_txt; [reflexivity|]. apply md_ugly, H. Qed.
Lemma mod_join0 : modifier n_join None = mJoin.
Proof. vm_compute. reflexivity. Qed.
Lemma mod_pretty : modifier n_pretty None = mPretty.
Proof. vm_compute. reflexivity. Qed.
Lemma txt_pretty s t : reads s t -> exists r, reads r t /\ forall s', reads s' t -> txt s' mPretty r.
Proof.
  intros H. destruct (get_pretty_doc s t H) as (v & E & Hr). exists (v_json v). split; [exact Hr|].
  intros s' H'. destruct (get_pretty s) as (o & v1 & x & P & G & X & J & _). destruct (get_pretty s') as (o' & v2 & x' & P' & G' & X' & J' & _).
  assert (Q : pretty_options s popts_default = pretty_options s' popts_default) by exact (pretty_same s s' t popts_default H H').
  assert (Po : Ok o = Ok o') by (rewrite <- P, <- P'; exact Q). apply Ok_inj in Po.
  subst o'. exists v2. split; [rewrite <- mod_pretty; exact G'|]. rewrite J'. rewrite E in G. apply Ok_inj in G. subst v1.
  rewrite X in X'. apply Ok_inj in X'. subst x'. symmetry. exact J.
Qed.
Lemma own_doc c w2 : own c w2 = [] ++ render c ++ (if is_container c then w2 else []).
Proof. unfold own. destruct (is_container c); [reflexivity|]. rewrite app_nil_r. reflexivity. Qed.
Lemma own_own c w2 : own c (if is_container c then w2 else []) = own c w2.
Proof. unfold own. destruct (is_container c); reflexivity. Qed.
Lemma ws_own c w2 : ws w2 -> ws (if is_container c then w2 else []).
Proof. intros H. destruct (is_container c); [exact H|constructor]. Qed.
Lemma reads_own c w2 : wf c -> ws w2 -> reads (own c w2) (erase c).
Proof. intros Hc H2. exists [], c, (if is_container c then w2 else []). rewrite own_doc. split; [constructor|]. split; [exact Hc|]. split; [apply ws_own, H2|]. split; reflexivity. Qed.
Lemma nonempty_reads r t : reads r t -> r <> [].
Proof.
  intros (w1 & c & w2 & _ & Hc & _ & -> & _) E. destruct (app_eq_nil _ _ E) as [_ E1]. destruct (app_eq_nil _ _ E1) as [E2 _].
  destruct (render_head c Hc) as (x & y & Ex & _). rewrite Ex in E2. discriminate.
Qed.

(** Each of these reads the same as before. *)
Definition tidy (m : bytes) : Prop := In m [mThis; mValid; mUgly; mPretty].
Lemma tidy_stage m : tidy m -> stage m.
Proof. intros [<-|[<-|[<-|[<-|[]]]]]; apply stage_simple; reflexivity. Qed.
Lemma tidy_txt m s t : tidy m -> reads s t -> exists r, txt s m r /\ reads r t.
Proof.
  intros [<-|[<-|[<-|[<-|[]]]]] H.
  - destruct H as (w1 & c & w2 & H1 & Hc & H2 & -> & <-). exists (own c w2). split; [|apply reads_own; auto].
    apply mod_txt; [reflexivity|]. apply md_this; auto.
  - destruct H as (w1 & c & w2 & H1 & Hc & H2 & -> & <-). exists (own c w2). split; [|apply reads_own; auto].
    apply mod_txt; [reflexivity|]. apply md_valid; auto.
  - exists (minimal t). split; [apply txt_ugly, H|]. apply (ugly_reads s t H).
  - destruct (txt_pretty s t H) as (r & Hr & Ht). exists r. split; [apply Ht, H|exact Hr].
Qed.
(** What these make of a document depends on its tokens only. *)
Definition neat (m : bytes) : Prop := In m [mUgly; mPretty].
Lemma neat_tidy m : neat m -> tidy m.
Proof. intros [<-|[<-|[]]]; unfold tidy; cbn [In]; auto. Qed.
Lemma neat_txt m s t : neat m -> reads s t -> exists r, reads r t /\ forall s', reads s' t -> txt s' m r.
Proof.
  intros [<-|[<-|[]]] H.
  - exists (minimal t). split; [apply (ugly_reads s t H)|]. intros s' H'. apply txt_ugly, H'.
  - apply (txt_pretty s t H).
Qed.

Lemma valid_reads s : valid s = Ok true -> exists w1 c w2, ws w1 /\ wf c /\ ws w2 /\ s = w1 ++ render c ++ w2.
Proof. intros H. apply P_Taken.valid_doc in H as (w1 & c & w2 & -> & H1 & Hc & H2). exists w1, c, w2. auto. Qed.

Theorem law_neat s m n : valid s = Ok true -> tidy m -> neat n -> alike s (m ++ 124%N :: n) n.
Proof.
  intros Hv Hm Hn. apply valid_reads in Hv as (w1 & c & w2 & H1 & Hc & H2 & E).
  assert (Hr : reads s (erase c)) by (exists w1, c, w2; auto).
  destruct (tidy_txt m s _ Hm Hr) as (r & Tr & Rr). destruct (neat_txt n s _ Hn Hr) as (x & Rx & Tx).
  apply (alike_txt s _ _ x).
  - apply closed_pipe; [apply stage_whole, tidy_stage, Hm|apply closed_stage, tidy_stage, neat_tidy, Hn].
  - apply closed_stage, tidy_stage, neat_tidy, Hn.
  - eapply txt_pipe; [apply stage_whole, tidy_stage, Hm|exact Tr|apply Tx, Rr].
  - apply Tx, Hr.
  - eapply nonempty_reads, Rx.
Qed.

Lemma pipe_outcome s a b v : whole a -> get s a = Ok v -> same_outcome (get s (a ++ 124%N :: b)) (get (v_json v) b).
Proof. intros Ha E. rewrite get_whole by auto. rewrite E. cbn [bind]. apply vget_text. eapply ret_get, E. Qed.
Lemma outcome_ok a v : same_outcome a (Ok v) -> exists w, a = Ok w /\ same_answers w v.
Proof. destruct a as [w|]; cbn; [eauto|contradiction]. Qed.

Theorem law_first s m p n : valid s = Ok true -> tidy m -> tame p -> whole p -> neat n ->
  alike s (m ++ 124%N :: p ++ 124%N :: n) (p ++ 124%N :: n).
Proof.
  intros Hv Hm Hp Hw Hn. apply valid_reads in Hv as (w1 & c & w2 & H1 & Hc & H2 & E).
  assert (Hr : reads s (erase c)) by (exists w1, c, w2; auto).
  destruct (tidy_txt m s _ Hm Hr) as (r & Tr & Rr).
  destruct (get_same s r _ p Hr Rr Hp) as (v & v' & Ev & Ev' & Sv).
  assert (Wm := stage_whole _ (tidy_stage _ Hm)). assert (Cn := closed_stage _ (tidy_stage _ (neat_tidy _ Hn))).
  assert (C1 : closed (p ++ 124%N :: n)) by (apply closed_pipe; auto).
  assert (C2 : closed (m ++ 124%N :: p ++ 124%N :: n)) by (apply closed_pipe; auto).
  destruct (v_exists v) eqn:X.
  - destruct (sm_tokens _ _ Sv X) as (t & R1 & R2). destruct (neat_txt n _ _ Hn R1) as (x & Rx & Tx).
    apply (alike_txt s _ _ x C2 C1).
    + apply (txt_pipe _ _ _ r); [exact Wm|exact Tr|]. apply (txt_pipe _ _ _ (v_json v')); [exact Hw|exists v'; auto|apply Tx, R2].
    + apply (txt_pipe _ _ _ (v_json v)); [exact Hw|exists v; auto|apply Tx, R1].
    + eapply nonempty_reads, Rx.
  - destruct (sm_absent _ _ Sv X) as [J J'].
    assert (G : exists z, get [] n = Ok z) by (destruct Hn as [<-|[<-|[]]]; eexists; vm_compute; reflexivity). destruct G as (z & G).
    assert (O1 := pipe_outcome s p n v Hw Ev). rewrite J, G in O1. apply outcome_ok in O1 as (a & Ea & Sa).
    assert (O2 := pipe_outcome r p n v' Hw Ev'). rewrite J', G in O2. apply outcome_ok in O2 as (b & Eb & Sb).
    destruct Tr as (u & Eu & Ju). assert (O3 := pipe_outcome s m (p ++ 124%N :: n) u Wm Eu). rewrite Ju, Eb in O3.
    apply outcome_ok in O3 as (d & Ed & Sd).
    apply (alike_same s _ _ d a C2 C1 Ed Ea). eapply P_Again.same_trans; [exact Sd|]. eapply P_Again.same_trans; [exact Sb|]. apply P_Again.same_sym, Sa.
Qed.

(* ---------- doing it again ---------- *)

Lemma idem s m r : stage m -> txt s m r -> txt r m r -> r <> [] -> alike s (m ++ 124%N :: m) m.
Proof.
  intros Hm T1 T2 Hr. apply (alike_txt s _ _ r); [apply closed_pipe; [apply stage_whole, Hm|apply closed_stage, Hm]|apply closed_stage, Hm| |exact T1|exact Hr].
  eapply txt_pipe; [apply stage_whole, Hm|exact T1|exact T2].
Qed.
Lemma flat_flat l : Forall (fun c => forall w es, c <> CArr w es) l -> flat_deep (array_of l) = l.
Proof.
  unfold array_of. cbn [flat_deep]. induction 1 as [|c l Hc Hl IH]; [reflexivity|]. cbn [map flat_map]. rewrite IH.
  destruct c; try reflexivity. exfalso; eapply Hc; reflexivity.
Qed.
Lemma flat_scalars c : Forall (fun c => forall w es, c <> CArr w es) (flat_deep c).
Proof.
  induction c as [ | | |n|b|w es IH|w ms IH] using cst_ind'; try (constructor; [discriminate|constructor]).
  cbn [flat_deep]. induction es as [|[a v b] es IHes]; [constructor|]. inversion IH; subst. cbn [flat_map]. apply Forall_app. split; auto.
Qed.
Lemma is_array c : (exists w es, c = CArr w es) \/ (forall w es, c <> CArr w es).
Proof. destruct c; try (right; discriminate). left. eauto. Qed.

Theorem law_idem s m : valid s = Ok true -> In m [mThis; mValid; mUgly; mPretty; mJoin; mDeep] -> alike s (m ++ 124%N :: m) m.
Proof.
  intros Hv Hm. destruct (valid_reads s Hv) as (w1 & c & w2 & H1 & Hc & H2 & ->).
  assert (Hr : reads (w1 ++ render c ++ w2) (erase c)) by (exists w1, c, w2; auto).
  assert (Ho : own c w2 <> []) by (eapply nonempty_reads, reads_own; auto).
  assert (Wo := ws_own c w2 H2).
  assert (Nil : ws []) by constructor.
  destruct Hm as [<-|[<-|[<-|[<-|[<-|[<-|[]]]]]]].
  - apply (idem _ _ (own c w2)); [apply stage_simple; reflexivity| | |exact Ho].
    + apply mod_txt; [reflexivity|]. apply md_this; auto.
    + apply mod_txt; [reflexivity|]. rewrite own_doc at 1. rewrite <- own_own. apply md_this; auto.
  - apply (idem _ _ (own c w2)); [apply stage_simple; reflexivity| | |exact Ho].
    + apply mod_txt; [reflexivity|]. apply md_valid; auto.
    + apply mod_txt; [reflexivity|]. rewrite own_doc at 1. rewrite <- own_own. apply md_valid; auto.
  - apply law_neat; [exact Hv|unfold tidy; cbn [In]; auto|left; reflexivity].
  - apply law_neat; [exact Hv|unfold tidy; cbn [In]; auto|right; left; reflexivity].
  - destruct (is_array c) as [(w & es & ->)|Ha].
    + assert (D : exists dv, get (arg_text None) s_preserve = Ok dv /\ v_bool dv = Ok false) by (eexists; split; [vm_compute; reflexivity|]; vm_compute; reflexivity).
      destruct D as (dv & D1 & D2). destruct (get_join w1 w es w2 None dv H1 Hc H2 I D1 D2) as (v & out & E & S & W & M).
      apply (idem _ _ (render (CObj [] out))); [apply stage_simple; reflexivity| | |discriminate].
      * exists v. split; [rewrite <- mod_join0; exact E|]. apply (ht_shows _ _ S).
      * apply mod_txt; [reflexivity|]. 
        replace (render (CObj [] out)) with ([] ++ render (CObj [] out) ++ []) at 1 by (rewrite app_nil_r; reflexivity).
        replace (render (CObj [] out)) with (own (CObj [] out) []) at 2 by (unfold own; cbn [is_container]; apply app_nil_r).
        apply md_join_other; auto. discriminate.
    + apply (idem _ _ (own c w2)); [apply stage_simple; reflexivity| | |exact Ho].
      * apply mod_txt; [reflexivity|]. apply md_join_other; auto.
      * apply mod_txt; [reflexivity|]. rewrite own_doc at 1. rewrite <- own_own. apply md_join_other; auto.
  - destruct (is_array c) as [(w & es & ->)|Ha].
    + set (l := flat_deep (CArr w es)).
      assert (Hl : wf (array_of l)).
      { unfold array_of. constructor; [constructor|]. apply Forall_map. eapply Forall_impl; [|exact (flat_deep_wf _ Hc)].
        intros x Hx. constructor; auto. }
      apply (idem _ _ (render (array_of l))); [exact stage_deep| | |discriminate].
      * apply deep_txt. apply md_flatten_deep; auto.
      * apply deep_txt.
        replace (render (array_of l)) with ([] ++ render (array_of l) ++ []) at 1 by (rewrite app_nil_r; reflexivity).
        rewrite <- (flat_flat l (flat_scalars (CArr w es))) at 2. apply md_flatten_deep; auto.
    + apply (idem _ _ (own c w2)); [exact stage_deep| | |exact Ho].
      * apply deep_txt. apply md_flatten_other; auto.
      * apply deep_txt. rewrite own_doc at 1. rewrite <- own_own. apply md_flatten_other; auto.
Qed.

(* ---------- reversing ---------- *)

Lemma reversed_thrice c : reversed (reversed (reversed c)) = reversed c.
Proof.
  rewrite (reversed_twice (reversed c)). destruct c as [ | | |n|b|w es|w ms]; try reflexivity; cbn [reversed]; f_equal; rewrite map_rev, map_map; f_equal;
    apply map_ext; intros []; reflexivity.
Qed.
Lemma erase_twice c : erase (reversed (reversed c)) = erase c.
Proof.
  rewrite reversed_twice. destruct c as [ | | |n|b|w es|w ms]; try reflexivity; cbn [erase]; f_equal; rewrite map_map;
    apply map_ext; intros []; reflexivity.
Qed.
Lemma txt_rev w1 c w2 : ws w1 -> wf c -> ws w2 -> txt (w1 ++ render c ++ w2) mRev (render (reversed c)).
Proof. intros H1 Hc H2. apply mod_txt; [reflexivity|]. apply md_reverse; auto. Qed.
Lemma txt_rev' c : wf c -> txt (render c) mRev (render (reversed c)).
Proof. intros Hc. replace (render c) with ([] ++ render c ++ []) at 1 by (rewrite app_nil_r; reflexivity). apply txt_rev; auto; constructor. Qed.
Lemma stage_rev : stage mRev.
Proof. apply stage_simple. reflexivity. Qed.

Theorem law_reverse s : valid s = Ok true -> alike s (mRev ++ 124%N :: mRev ++ 124%N :: mRev) mRev.
Proof.
  intros Hv. destruct (valid_reads s Hv) as (w1 & c & w2 & H1 & Hc & H2 & ->).
  assert (W := stage_whole _ stage_rev). assert (C := closed_stage _ stage_rev).
  apply (alike_txt _ _ _ (render (reversed c))); [apply closed_pipe; [exact W|]; apply closed_pipe; auto|exact C| |apply txt_rev; auto|].
  - eapply txt_pipe; [exact W|apply txt_rev; auto|]. eapply txt_pipe; [exact W|apply txt_rev', wf_reversed, Hc|].
    rewrite <- (reversed_thrice c) at 2. apply txt_rev'. apply wf_reversed, wf_reversed, Hc.
  - destruct (render_head _ (wf_reversed _ Hc)) as (x & y & Ex & _). rewrite Ex. discriminate.
Qed.
Theorem law_reverse_neat s n : valid s = Ok true -> neat n -> alike s (mRev ++ 124%N :: mRev ++ 124%N :: n) n.
Proof.
  intros Hv Hn. destruct (valid_reads s Hv) as (w1 & c & w2 & H1 & Hc & H2 & ->).
  assert (Hr : reads (w1 ++ render c ++ w2) (erase c)) by (exists w1, c, w2; auto).
  assert (W := stage_whole _ stage_rev). assert (C := closed_stage _ (tidy_stage _ (neat_tidy _ Hn))).
  destruct (neat_txt n _ _ Hn Hr) as (x & Rx & Tx).
  apply (alike_txt _ _ _ x); [apply closed_pipe; [exact W|]; apply closed_pipe; auto|exact C| |apply Tx, Hr|eapply nonempty_reads, Rx].
  eapply txt_pipe; [exact W|apply txt_rev; auto|]. eapply txt_pipe; [exact W|apply txt_rev', wf_reversed, Hc|].
  apply Tx. exists [], (reversed (reversed c)), []. split; [constructor|]. split; [apply wf_reversed, wf_reversed, Hc|].
  split; [constructor|]. split; [rewrite app_nil_r; reflexivity|]. apply erase_twice.
Qed.

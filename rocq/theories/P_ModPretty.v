(** The modifiers ugly and pretty. *)
From Verif Require Import P_Base P_Json P_Valid P_Each P_Doc P_Value P_Tree P_POut P_PTree P_Mod P_ModDoc
  M_Util M_Num M_Scan M_Value M_Path M_Valid M_Get M_Pretty S_Json S_Get S_Tree S_Mod S_PrettyArg.

Lemma same_out json name arg out : mod_name name -> arg_ok arg -> mod_apply get name json (arg_text arg) = Ok out ->
  exists v x, get json (modifier name arg) = Ok v /\ parse out = Ok x /\ v_json v = v_json x /\ v_kind v = v_kind x /\ v_str v = v_str x.
Proof.
  intros Hn Ha E. destruct (get_mod_out json name arg out Hn Ha E) as (v & x & E1 & E2 & Hv). exists v, x.
  split; [exact E1|]. split; [exact E2|]. split; [exact (proj1 Hv)|]. split; [exact (veq_kind _ _ Hv) | exact (veq_str _ _ Hv)].
Qed.

Lemma get_ugly json arg : arg_ok arg -> exists out v x, ugly json = Ok out /\ get json (modifier n_ugly arg) = Ok v /\
  parse out = Ok x /\ v_json v = v_json x /\ v_kind v = v_kind x /\ v_str v = v_str x.
Proof.
  intros Ha. destruct (ugly_total json) as (out & E). destruct (same_out json n_ugly arg out) as (v & x & H); auto using plain_name.
  exists out, v, x. auto.
Qed.
Lemma get_pretty json : exists out v x, pretty json = Ok out /\ get json (modifier n_pretty None) = Ok v /\
  parse out = Ok x /\ v_json v = v_json x /\ v_kind v = v_kind x /\ v_str v = v_str x.
Proof.
  destruct (pretty_total json popts_default) as (out & E). destruct (same_out json n_pretty None out) as (v & x & H); auto using plain_name.
  { exact I. } exists out, v, x. auto.
Qed.
Lemma get_pretty_arg json arg o : mod_arg arg -> arg <> [] -> pretty_arg arg o ->
  exists out v x, pretty_options json o = Ok out /\ get json (modifier n_pretty (Some arg)) = Ok v /\
  parse out = Ok x /\ v_json v = v_json x /\ v_kind v = v_kind x /\ v_str v = v_str x.
Proof.
  intros Ha Hn Ho. destruct (pretty_total json o) as (out & E). destruct (same_out json n_pretty (Some arg) out) as (v & x & H); auto using plain_name.
  { change (mod_apply get n_pretty json (arg_text (Some arg))) with (mod_pretty get json arg). rewrite (mod_pretty_arg json arg o Hn Ho). exact E. }
  exists out, v, x. auto.
Qed.
Lemma get_ugly_doc json t arg : reads json t -> arg_ok arg ->
  exists v, get json (modifier n_ugly arg) = Ok v /\ v_json v = minimal t.
Proof.
  intros Hr Ha. destruct (get_ugly json arg Ha) as (out & v & x & E & G & P & J & _). exists v. split; auto.
  destruct Hr as (w1 & c & w2 & H1 & Hc & H2 & -> & <-). rewrite ugly_doc in E by auto. injection E as <-.
  rewrite J. rewrite parse_spec in P. injection P as <-. rewrite <- render_embed.
  apply sh_json. apply parse_shows. apply wf_embed, wf_erase, Hc.
Qed.
Lemma get_pretty_doc json t : reads json t -> exists v, get json (modifier n_pretty None) = Ok v /\ reads (v_json v) t.
Proof.
  intros Hr. destruct (get_pretty json) as (out & v & x & E & G & P & J & _). exists v. split; auto. rewrite J.
  destruct (pretty_reads_unsorted json t popts_default) as (out' & E' & Hr'); auto.
  { constructor. } { apply Forall_forall. intros c Hc. cbn in Hc. destruct Hc as [<-|[<-|[]]]; left; reflexivity. }
  unfold pretty in E. rewrite E' in E. injection E as ->. destruct (parse_reads out t Hr') as (y & Ey & Hy). congruence.
Qed.

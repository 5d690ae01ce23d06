(** Results of plain paths are pieces of the document. *)
From Verif Require Import P_Base P_Valid P_Str P_Glob P_Scan P_Each P_Path P_LGet P_Parts P_Ext P_Total P_Find
  M_Util M_Num M_Scan M_Value M_Path M_Get.

(** One of the two text fields is empty, and the text lies in [json]. *)
Definition part (v : value) (json : bytes) : Prop :=
  (v_slice v = [] \/ v_owned v = []) /\ infix (v_json v) json.

Lemma part_default json : part value_default json.
Proof. split; [left; reflexivity | apply infix_nil]. Qed.
Lemma part_trans v a b : infix a b -> part v a -> part v b.
Proof. intros H [H1 H2]. split; auto. eapply infix_trans; eauto. Qed.
Lemma infix_ltext l : infix (ltext l) l.
Proof.
  destruct (ltext l) as [|a t] eqn:E; [apply infix_nil|]. rewrite <- E. apply (infix_prefix _ _ (lrest l)).
  apply ltext_app. rewrite E. discriminate.
Qed.
Lemma part_fval json l : suf l json -> part (fval json l) json.
Proof.
  intros H. unfold fval. destruct (linfo l =? 0)%N; [apply part_default|]. split; [right; reflexivity|].
  unfold v_json. cbn [mkslice v_owned v_slice]. eapply infix_trans; [apply infix_ltext | apply infix_suf; auto].
Qed.
Lemma part_owned v json : part v json -> part (json_into_owned v) json.
Proof.
  intros [H1 H2]. split; [left; reflexivity|]. unfold v_json in *. cbn [json_into_owned v_owned v_slice].
  destruct (v_slice v) as [|a t] eqn:Es; destruct (v_owned v) as [|b u] eqn:Eo; auto; try exact H2.
  destruct H1; discriminate.
Qed.
Lemma part_index v json ix : part v json -> part (add_index ix v) json.
Proof. intros H. exact H. Qed.

Lemma part_get g v p json : (forall j, match g j p with Ok r => part r j | Err _ => True end) -> part v json ->
  match v_get_with g v p with Ok r => part r json | Err _ => True end.
Proof.
  intros Hg [H1 H2]. unfold v_get_with. unfold v_json in H2. destruct (v_slice v) as [|a t] eqn:Es.
  - specialize (Hg (v_owned v)). destruct (g (v_owned v) p) as [r|]; cbn [bind]; auto.
    apply part_index, part_owned. eapply part_trans; [|exact Hg].
    destruct (v_owned v); [apply infix_nil | auto].
  - specialize (Hg (a :: t)). destruct (g (a :: t) p) as [r|]; cbn [bind]; auto.
    apply part_index. eapply part_trans; [|exact Hg]. destruct H1 as [H1|H1]; [discriminate|]. rewrite H1 in H2. auto.
Qed.

(** Bytes that start a modifier, a hash or a multipath. *)
Definition odd_byte (c : N) : Prop := c = 64%N \/ c = 35%N \/ c = 91%N \/ c = 123%N.
Definition no_odd (p : bytes) : Prop := forall c, In c p -> ~ odd_byte c.
Lemma no_odd_infix a b : infix a b -> no_odd b -> no_odd a.
Proof. intros H Hb c Hc. apply Hb. eapply infix_in; eauto. Qed.

Lemma elems_part json lines l : suf l json -> Forall (fun v => part v json) (elems json lines l).
Proof.
  intros H. apply Forall_forall. intros v Hv. unfold elems in Hv. apply in_map_iff in Hv as (x & <- & Hx).
  apply part_fval. unfold fe_items in Hx. destruct lines.
  - apply items_suf in Hx as [Hx _]. eapply suf_trans; eauto.
  - apply items_suf in Hx as [Hx _]. eapply suf_trans; [exact Hx|]. destruct l; [exact H | eapply suf_tail; eauto].
Qed.

Lemma larr_part g json lines l p v p' : suf l json -> hd 0%N (p_comp p) <> 35%N ->
  larr g json lines l p = Ok (v, p') -> part v json.
Proof.
  intros Hl Hp. unfold larr. cbv zeta. pose proof (elems_part json lines l Hl) as He.
  assert (Hn : forall n, part (nth n (elems json lines l) value_default) json).
  { intros n. destruct (nth_in_or_default n (elems json lines l) value_default) as [Hi| ->]; [|apply part_default].
    apply (proj1 (Forall_forall _ _) He); auto. }
  destruct (p_comp p) as [|c t].
  - intros H. injection H as <- _. destruct (0 <=? comp_index [])%Z; auto using part_default.
  - cbn [hd] in Hp. replace (c =? 35)%N with false by lia. intros H. injection H as <- _.
    destruct (0 <=? _)%Z; auto using part_default.
Qed.

Lemma lobj_loop_part lsub json p :
  (forall r v p', suf r json -> lsub r = Ok (LReturn v p') -> part v json) ->
  forall fuel l v p', suf l json -> lobj_loop fuel lsub json l p = Ok (v, p') -> part v json.
Proof.
  intros Hsub. induction fuel as [|fuel IH]; intros l v p' Hl; cbn [lobj_loop]; [discriminate|].
  assert (Hd : Ok (value_default, p) = Ok (v, p') -> part v json) by (intros H; injection H as <- _; apply part_default).
  destruct l as [|c t]; [apply Hd|]. destruct (c =? 125)%N; [apply Hd|].
  pose proof (suf_tail _ _ _ Hl) as Ht.
  destruct (negb (c =? 34)%N); [apply IH; auto|].
  destruct (split_str t) as [(b, r0)|] eqn:Es; [|apply Hd]. apply split_rest in Es as [Hr _].
  assert (Hr' : suf (dropw colon_stop r0) json).
  { eapply suf_trans; [apply suf_dropw|]. eapply suf_trans; eauto. }
  cbv zeta. destruct (dropw colon_stop r0) as [|c' t'] eqn:Er; [apply Hd|].
  assert (Hflat : (if kmatch p b && v_exists (fval json (c' :: t')) then Ok (fval json (c' :: t'), p)
                   else lobj_loop fuel lsub json (lrest (c' :: t')) p) = Ok (v, p') -> part v json).
  { destruct (kmatch p b && v_exists (fval json (c' :: t'))).
    - intros H. injection H as <- _. apply part_fval; auto.
    - apply IH. eapply suf_trans; [apply lrest_suf|]. auto. }
  destruct (_ && _ && _); [|apply Hflat].
  intros H. apply bind_ok in H as (d & Ed & H). destruct d as [v0 p0| |]; [|apply Hflat; auto|eapply IH; eauto].
  injection H as <- <-. eapply Hsub; eauto.
Qed.

Lemma lobj_part g text json : no_odd text -> forall fuel l p v p', suf l json -> pin text p ->
  lobj fuel g json l p = Ok (v, p') -> part v json.
Proof.
  intros Ho. induction fuel as [|fuel IH]; intros l p v p' Hl Hp; cbn [lobj]; [discriminate|].
  assert (Hd : Ok (value_default, p) = Ok (v, p') -> part v json) by (intros H; injection H as <- _; apply part_default).
  destruct l as [|c t]; [apply Hd|]. destruct (negb (c =? 123)%N); [apply Hd|].
  apply lobj_loop_part; [|eapply suf_tail; eauto]. intros r v0 p0 Hr. cbv zeta.
  destruct (_ || _); [discriminate|]. intros H. apply bind_ok in H as ((v1, p1) & E & H).
  destruct (v_exists v1); [|discriminate]. injection H as <- <-. destruct r as [|c' t']; [discriminate|].
  pose proof (pin_next _ _ Hp) as Hq.
  destruct (c' =? 123)%N; [eapply IH; eauto|]. eapply larr_part; eauto.
  destruct (p_comp (pnext (p_extra p))) as [|k ks] eqn:Ek; [discriminate|]. cbn [hd].
  pose proof (pin_comp _ _ Hq) as Hi. rewrite Ek in Hi. intros ->. apply (Ho 35%N); [|unfold odd_byte; auto].
  eapply infix_in; [exact Hi | left; auto].
Qed.

Lemma no_odd_kind text p : no_odd text -> pin text p ->
  is_modifier p = false /\ is_multipath p = false /\ hd 0%N (p_comp p) <> 35%N.
Proof.
  intros Ho [Hc _ _]. unfold is_modifier, is_multipath.
  destruct (p_comp p) as [|k ks]; [repeat split; discriminate|]. cbn [hd].
  assert (Hk : ~ odd_byte k) by (apply Ho; eapply infix_in; [exact Hc | left; auto]).
  unfold odd_byte in Hk. repeat split; try lia;
  change cAT with 64%N; change cLBRK with 91%N; change cLBRC with 123%N; lia.
Qed.

Theorem get_part : forall n text json, length text <= n -> no_odd text ->
  match get json text with Ok v => part v json | Err _ => True end.
Proof.
  induction n as [n IH] using lt_wf_ind. intros text json Hn Ho. rewrite get_spec.
  destruct (split_lines text) as [lines t] eqn:El. apply split_lines_infix in El.
  pose proof (no_odd_infix _ _ El Ho) as Ht. pose proof (pin_pnext t) as Hp.
  destruct (no_odd_kind _ _ Ht Hp) as (Hm1 & Hm2 & Hm3).
  destruct (lget_first get json lines (pnext t)) as [(v, p')|e] eqn:E; cbn [bind]; auto.
  pose proof (lget_first_pin _ _ _ _ _ _ _ Hp E) as Hp'.
  assert (Hv : part v json).
  { unfold lget_first in E. destruct lines.
    - eapply larr_part; eauto. apply suf_refl.
    - rewrite Hm1, Hm2 in E. unfold lstart in E. cbv zeta in E.
      pose proof (suf_dropw above_sp json) as Hs. destruct (dropw above_sp json) as [|c l].
      { injection E as <- _. apply part_default. }
      destruct (c =? 123)%N.
      { eapply (lobj_part get t json Ht); [exact Hs | exact Hp | exact E]. }
      destruct (c =? 91)%N; [eapply larr_part; eauto|]. injection E as <- _. apply part_default. }
  destruct (p_more p') eqn:Em; cbn [negb]; [|exact Hv].
  apply part_get; [|exact Hv]. intros j. apply (IH (length (p_extra p'))); auto.
  - pose proof (pin_short _ _ Hp' Em). apply infix_length in El. lia.
  - eapply no_odd_infix; [apply (pin_extra _ _ Hp') | exact Ht].
Qed.

Theorem get_substring json p v : (forall c, In c p -> c <> 64%N /\ c <> 35%N /\ c <> 91%N /\ c <> 123%N) ->
  get json p = Ok v -> exists a b, json = a ++ v_json v ++ b.
Proof.
  intros Hp E. pose proof (get_part (length p) p json (le_n _)) as H. rewrite E in H.
  apply H. intros c Hc. specialize (Hp c Hc). unfold odd_byte. lia.
Qed.

(** What holds of a document, of every part of it and of everything put together from
    such parts holds of every result, whatever the document is. *)
From Verif Require Import P_Base P_Json P_Valid P_ValidSpec P_Str P_Glob P_Scan P_Each P_Doc P_Path P_LGet P_Parts P_Ext P_Total P_Value P_Num
  P_Key P_Find P_GetDoc P_GetArr P_Stream P_Closed M_Util M_Num M_Scan M_Value M_Path M_Get S_Json S_Get S_Path.

Section Keep.
Context (I PP KK : bytes -> Prop).
Context (I_nil : I []).
Context (I_tail : forall c t, c <> 34%N -> I (c :: t) -> I t).
Context (I_flat : forall l, I l -> I (ltext l) /\ I (lrest l)).
Context (I_count : forall n, I (dec_of_nat n)).
Context (I_arr : forall l, Forall I l -> I (91%N :: commas l ++ [93%N])).
Context (I_obj : forall l, Forall (fun kv => KK (fst kv) /\ I (snd kv)) l ->
  I (123%N :: commas (map (fun kv => json_string (fst kv) ++ 58%N :: snd kv) l) ++ [125%N])).

Definition kpath (p : path) : Prop := PP (p_comp p) /\ (p_more p = true -> PP (p_extra p)).
Context (HPnil : PP []).
Context (HPlines : forall t, PP t -> PP (snd (split_lines t))).
Context (HPnext : forall t, PP t -> kpath (pnext t)).
Context (HPgroup : forall e g r, PP e -> group e = (g, r) -> PP g /\ (p_more r = true -> PP (p_extra r))).
Context (HPcomps : forall a p z k q, PP (a :: p ++ [z]) -> a = 91%N \/ a = 123%N -> z = 93%N \/ z = 125%N ->
  In (k, q) (comps p) -> KK k /\ PP q).

Definition kept (v : value) : Prop := (v_slice v = [] \/ v_owned v = []) /\ I (v_json v).
Context (HPmod : forall t json v p', PP t -> is_modifier (pnext t) = true -> I json ->
  mod_exec get json (pnext t) = Ok (v, p') -> kept v /\ p' = pnext t).
Definition keeps (g : getter) (t : bytes) : Prop := forall j v, I j -> g j t = Ok v -> kept v.

Lemma kept_default : kept value_default.
Proof. split; [left; reflexivity | exact I_nil]. Qed.
Lemma kept_owned t info ix : I t -> kept (mkowned t info ix).
Proof. intros H. split; [left; reflexivity|]. rewrite mkowned_json. exact H. Qed.
Lemma kept_into v : kept v -> kept (json_into_owned v).
Proof. intros [H1 H2]. split; [left; reflexivity|]. rewrite json_into_owned_json by auto. exact H2. Qed.
Lemma kept_index v ix : kept v -> kept (add_index ix v).
Proof. intros [H1 H2]. split; [exact H1 | exact H2]. Qed.

Lemma kept_get g v t r : keeps g t -> kept v -> v_get_with g v t = Ok r -> kept r.
Proof.
  intros Hg [H1 Hd]. unfold v_get_with. unfold v_json in Hd. destruct (v_slice v) as [|a s] eqn:Es.
  - assert (Ho : I (v_owned v)) by (destruct (v_owned v); auto).
    intros H. apply bind_ok in H as (x & E & H). injection H as <-. apply bind_ok in E as (y & E & Ey). injection Ey as <-.
    apply kept_index, kept_into. eapply Hg; eauto.
  - destruct H1 as [H1|H1]; [discriminate|]. rewrite H1 in Hd.
    intros H. apply bind_ok in H as (x & E & H). injection H as <-. apply kept_index. eapply Hg; eauto.
Qed.

Lemma I_dropw f l : (forall c, f c = false -> c <> 34%N) -> I l -> I (dropw f l).
Proof.
  intros Hf. induction l as [|c t IH]; auto. cbn [dropw]. destruct (f c) eqn:E; auto. intros H. apply IH. eapply I_tail; eauto.
Qed.
Lemma I_fval json l : I l -> kept (fval json l).
Proof.
  intros H. split; [right; apply fval_one|]. destruct (v_exists (fval json l)) eqn:E.
  - rewrite (proj1 (fval_json _ _ E)). apply I_flat, H.
  - unfold v_exists in E. destruct (v_json (fval json l)); [exact I_nil | discriminate].
Qed.
Lemma I_items l : I l -> Forall I (items l).
Proof using I_tail I_flat.
  revert l. clear - I_tail I_flat. intros l. induction l as [l IH] using (induction_ltof1 _ (@length N)). unfold ltof in IH. intros H.
  destruct l as [|c t]; [constructor|]. rewrite items_cons.
  pose proof (proj2 (lrest_suf (c :: t)) ltac:(discriminate)) as Hl.
  destruct (skip_sep c) eqn:E1.
  { apply IH; [cbn [length]; lia|]. apply (I_tail c); auto. intros ->. discriminate E1. }
  destruct (end_item c); [constructor|].
  assert (Hr : Forall I (items (lrest (c :: t)))) by (apply IH; auto; apply I_flat, H).
  destruct (v_exists (fval (c :: t) (c :: t))); [constructor; auto | exact Hr].
Qed.
Lemma I_elems json lines l : (lines = false -> exists c t, l = c :: t /\ c <> 34%N) -> I l -> Forall kept (elems json lines l).
Proof.
  intros Hc H. unfold elems, fe_items. apply Forall_map. eapply Forall_impl; [intros a; apply I_fval|].
  destruct lines; [apply I_items, H|]. destruct (Hc eq_refl) as (c & t & -> & Hn). apply I_items. cbn [tl]. eapply I_tail; eauto.
Qed.

Lemma I_array ys : Forall kept ys -> kept (mkowned (fst (fold_left push_elem ys ([91%N], 0)) ++ [93%N]) INFO_ARRAY None).
Proof.
  intros H. apply kept_owned. rewrite push_list0. apply I_arr. apply Forall_map.
  apply Forall_forall. intros y Hy. apply filter_In in Hy as [Hy _]. apply (proj1 (Forall_forall _ _) H y Hy).
Qed.
Lemma I_object (ys : list (bytes * value)) : Forall (fun kv => KK (fst kv) /\ kept (snd kv)) ys ->
  kept (mkowned (fst (fold_left push_memb ys ([123%N], 0)) ++ [125%N]) INFO_OBJECT None).
Proof.
  intros H. apply kept_owned. rewrite push_membs0.
  pose proof (I_obj (map (fun kv => (fst kv, v_json (snd kv))) (filter (fun kv => v_exists (snd kv)) ys))) as Ho.
  rewrite map_map in Ho. cbn [fst snd] in Ho. apply Ho. apply Forall_map. apply Forall_forall. intros y Hy.
  apply filter_In in Hy as [Hy _]. destruct (proj1 (Forall_forall _ _) H y Hy) as [H1 [_ H2]]. auto.
Qed.

Lemma push_all_kept f : forall xs st st', (forall x y, In x xs -> f x = Ok (Some y) -> kept y) ->
  push_all f xs st = Ok st' -> exists ys, Forall kept ys /\ st' = fold_left push_elem ys st.
Proof.
  induction xs as [|x xs IH]; intros st st' Hf; cbn [push_all].
  - intros H. injection H as <-. exists []. split; [constructor | reflexivity].
  - intros H. apply bind_ok in H as (o & Eo & H).
    apply IH in H as (ys & Hys & ->); [|intros; eapply Hf; eauto; right; auto].
    destruct o as [y|]; [|eauto]. exists (y :: ys). split; [|reflexivity]. constructor; auto. eapply Hf; eauto. left; auto.
Qed.
Lemma find_r_kept f : forall xs v, Forall kept xs -> find_r f xs = Ok v -> kept v.
Proof.
  induction xs as [|x xs IH]; intros v Hx; cbn [find_r].
  - intros H. injection H as <-. apply kept_default.
  - inversion Hx; subst. intros H. apply bind_ok in H as ([] & _ & H); [injection H as <-; auto | apply IH; auto].
Qed.

Lemma larr_kept g text json lines l p v p' : pin text p -> kpath p ->
  (forall t, length t < length text -> PP t -> keeps g t) ->
  Forall kept (elems json lines l) -> larr g json lines l p = Ok (v, p') -> kept v /\ kpath p'.
Proof.
  intros Hpin Hp Hg Hxs. unfold larr. cbv zeta.
  assert (Hidx : forall b : bool, Ok (if b then nth (Z.to_nat (comp_index (p_comp p))) (elems json lines l) value_default else value_default, p)
            = Ok (v, p') -> kept v /\ kpath p').
  { intros b H. injection H as <- <-. split; auto. destruct b; [|apply kept_default].
    destruct (nth_in_or_default (Z.to_nat (comp_index (p_comp p))) (elems json lines l) value_default) as [Hi| ->]; [|apply kept_default].
    apply (proj1 (Forall_forall _ _) Hxs); auto. }
  destruct (p_comp p) as [|c t] eqn:Ec; [apply Hidx|].
  destruct (c =? 35)%N; [|apply Hidx].
  assert (Hgrp : forall gr rest, next_group p = Ok (gr, rest) ->
      kpath rest /\ ((p_sep p =? 46)%N = true -> PP gr /\ length gr < length text)).
  { intros gr rest. rewrite next_group_spec. destruct (p_sep p =? 46)%N eqn:Es.
    - intros H. injection H as H. destruct (HPgroup _ _ _ (proj2 Hp (sep_dot_more _ Es)) H) as [Hg1 Hg2].
      pose proof (pin_group _ _ _ _ Hpin Es H) as (_ & _ & Hl). apply group_shape in H as (H & _).
      split; [split; [rewrite H; exact HPnil | auto]|]. auto.
    - intros H. injection H as <- <-. split; auto. discriminate. }
  destruct t as [|d t'].
  - destruct (p_sep p =? 46)%N.
    + intros H. apply bind_ok in H as ([gr rest] & E & H). apply bind_ok in H as (st & Est & H).
      destruct (Hgrp _ _ E) as (Hrest & HG). destruct (HG eq_refl) as [HG1 HG2].
      injection H as <- <-. split; auto. apply push_all_kept in Est as (ys & Hys & ->); [apply I_array; auto|].
      intros x y Hx Hy. apply bind_ok in Hy as (z & Ez & Hy). injection Hy as <-.
      eapply kept_get; [apply Hg; eauto | apply (proj1 (Forall_forall _ _) Hxs); eauto | exact Ez].
    + intros H. injection H as <- <-. split; auto. apply kept_owned, I_count.
  - destruct (last (d :: t') 0 =? 35)%N.
    + intros H. apply bind_ok in H as ([[lh op] rh] & _ & H). apply bind_ok in H as ([gr rest] & E & H).
      apply bind_ok in H as (st & Est & H). destruct (Hgrp _ _ E) as (Hrest & HG).
      injection H as <- <-. split; auto. apply push_all_kept in Est as (ys & Hys & ->); [apply I_array; auto|].
      intros x y Hx Hy. pose proof (proj1 (Forall_forall _ _) Hxs x Hx) as Hgx.
      apply bind_ok in Hy as ([] & _ & Hy); [|discriminate].
      destruct (p_sep p =? 46)%N; [|injection Hy as <-; auto].
      destruct (HG eq_refl) as [HG1 HG2]. apply bind_ok in Hy as (z & Ez & Hy). injection Hy as <-.
      eapply kept_get; [apply Hg; eauto | exact Hgx | exact Ez].
    + intros H. apply bind_ok in H as ([[lh op] rh] & _ & H). apply bind_ok in H as (x & Ex & H).
      injection H as <- <-. split; auto. eapply find_r_kept; eauto.
Qed.

Lemma lobj_loop_kept lsub json p :
  ((p_sep p =? 46)%N = true -> forall c t v p', container c = true -> I (c :: t) ->
     lsub (c :: t) = Ok (LReturn v p') -> kept v /\ kpath p') -> kpath p ->
  forall fuel l v p', I l -> lobj_loop fuel lsub json l p = Ok (v, p') -> kept v /\ kpath p'.
Proof.
  intros Hsub Hp. induction fuel as [|fuel IH]; intros l v p' Hl; [discriminate|]. cbn [lobj_loop].
  assert (Hd : Ok (value_default, p) = Ok (v, p') -> kept v /\ kpath p').
  { intros H. injection H as <- <-. auto using kept_default. }
  destruct l as [|c t]; [exact Hd|]. destruct (c =? 125)%N; [exact Hd|].
  destruct (N.eqb_spec c 34) as [->|Hc]; cbn [negb]; [|apply IH; eapply I_tail; eauto].
  destruct (split_str t) as [[b r0]|] eqn:Es; [|exact Hd]. cbv zeta.
  assert (Hr0 : I r0).
  { pose proof (proj2 (I_flat _ Hl)) as H. unfold lrest, lflat in H. change (34 =? 34)%N with true in H. cbv match in H. rewrite Es in H. exact H. }
  assert (Hr1 : I (dropw colon_stop r0)).
  { apply I_dropw; auto. intros c H ->. discriminate H. }
  destruct (dropw colon_stop r0) as [|c' t'] eqn:Er; [exact Hd|].
  assert (Hf : (if kmatch p b && v_exists (fval json (c' :: t')) then Ok (fval json (c' :: t'), p)
                else lobj_loop fuel lsub json (lrest (c' :: t')) p) = Ok (v, p') -> kept v /\ kpath p').
  { destruct (kmatch p b && v_exists (fval json (c' :: t'))) eqn:E.
    - intros H. injection H as <- <-. split; auto. apply I_fval, Hr1.
    - apply IH. apply I_flat, Hr1. }
  destruct (kmatch p b && (p_sep p =? 46)%N && container c') eqn:E; auto.
  apply andb_true_iff in E as [E Hco]. apply andb_true_iff in E as [_ Hs].
  intros H. apply bind_ok in H as (d & Ed & H). destruct d as [v1 p1| |]; auto.
  - injection H as <- <-. eapply Hsub; eauto.
  - revert H. apply IH. exact Hr1.
Qed.

Lemma lobj_kept g text json : (forall t, length t < length text -> PP t -> keeps g t) ->
  forall fuel l p v p', I l -> pin text p -> kpath p -> lobj fuel g json l p = Ok (v, p') -> kept v /\ kpath p'.
Proof.
  intros Hg. induction fuel as [|fuel IH]; intros l p v p' Hl Hpin Hp; [discriminate|]. cbn [lobj].
  assert (Hd : Ok (value_default, p) = Ok (v, p') -> kept v /\ kpath p').
  { intros H. injection H as <- <-. auto using kept_default. }
  destruct l as [|c t]; [exact Hd|]. destruct (N.eqb_spec c 123) as [->|]; cbn [negb]; [|exact Hd].
  apply lobj_loop_kept; auto; [|eapply I_tail; [|exact Hl]; discriminate].
  intros Es c' t' v1 p1 Hc' Hl' Els. cbv zeta in Els. pose proof (pin_next _ _ Hpin) as Hq.
  pose proof (HPnext _ (proj2 Hp (sep_dot_more _ Es))) as Hpq.
  destruct (_ || _); [discriminate|]. apply bind_ok in Els as ([v2 p2] & E1 & Els). destruct (v_exists v2); [|discriminate].
  injection Els as <- <-. destruct (c' =? 123)%N; [eapply IH; eauto|].
  eapply larr_kept; [exact Hq | exact Hpq | exact Hg | | exact E1].
  apply I_elems; auto. intros _. exists c', t'. split; auto. intros ->. discriminate Hc'.
Qed.

Lemma lstart_kept g text json p v p' : (forall t, length t < length text -> PP t -> keeps g t) ->
  I json -> pin text p -> kpath p -> lstart g json p = Ok (v, p') -> kept v /\ kpath p'.
Proof.
  intros Hg Hj Hpin Hp. unfold lstart. cbv zeta.
  assert (Hd : Ok (value_default, p) = Ok (v, p') -> kept v /\ kpath p').
  { intros H. injection H as <- <-. auto using kept_default. }
  assert (Hl : I (dropw above_sp json)).
  { apply I_dropw; auto. intros c H ->. discriminate H. }
  destruct (dropw above_sp json) as [|c t]; [exact Hd|].
  destruct (c =? 123)%N; [eapply lobj_kept; eauto|].
  destruct (N.eqb_spec c 91) as [->|]; [|exact Hd]. apply larr_kept with (text := text); auto.
  apply I_elems; auto. intros _. exists 91%N, t. split; auto. discriminate.
Qed.

Lemma multi_arr_kept g json : I json -> forall cs st st', Forall (fun kp => keeps g (snd kp)) cs ->
  multi_arr g json cs st = Ok st' -> exists ys, Forall kept ys /\ st' = fold_left push_elem ys st.
Proof.
  intros Hj. induction cs as [|[k p] cs IH]; intros st st' Hcs; cbn [multi_arr].
  - intros H. injection H as <-. exists []. split; [constructor | reflexivity].
  - inversion Hcs as [|? ? H1 H2]; subst. intros H. apply bind_ok in H as (y & Ey & H).
    apply IH in H as (ys & Hys & ->); auto. exists (y :: ys). split; [|reflexivity]. constructor; auto. eapply H1; eauto.
Qed.
Lemma multi_obj_kept g json : I json -> forall cs st st', Forall (fun kp => KK (fst kp) /\ keeps g (snd kp)) cs ->
  multi_obj g json cs st = Ok st' -> exists ys, Forall (fun kv => KK (fst kv) /\ kept (snd kv)) ys /\ st' = fold_left push_memb ys st.
Proof.
  intros Hj. induction cs as [|[k p] cs IH]; intros st st' Hcs; cbn [multi_obj].
  - intros H. injection H as <-. exists []. split; [constructor | reflexivity].
  - inversion Hcs as [|? ? [H1 H1'] H2]; subst. intros H. apply bind_ok in H as (y & Ey & H). destruct st as [o n].
    apply IH in H as (ys & Hys & ->); auto. exists ((k, y) :: ys). split; [|reflexivity]. constructor; auto. split; auto. eapply H1'; eauto.
Qed.

Lemma multi_exec_kept g text json p v p' : is_multipath p = true -> pin text p -> kpath p -> I json ->
  (forall t, length t < length text -> PP t -> keeps g t) ->
  multi_exec g json p = Ok (v, p') -> kept v /\ kpath p'.
Proof.
  intros Hmp Hpin Hp Hj Hg H. unfold multi_exec in H. unfold is_multipath in Hmp. destruct (p_comp p) as [|a t] eqn:Ec; [discriminate|].
  assert (Ha : a = 91%N \/ a = 123%N) by (change cLBRC with 123%N in Hmp; change cLBRK with 91%N in Hmp; lia).
  assert (Hcs : forall l z, usub (length (a :: t)) 1 = Ok l -> idx (a :: t) l = Ok z -> z = 93%N \/ z = 125%N ->
    forall cs, each_comp (a :: t) = Ok cs -> Forall (fun kp => KK (fst kp) /\ keeps g (snd kp)) cs).
  { intros l z0 El Ez Hz cs E. pose proof (each_comp_short _ _ E) as Hsh. destruct (app_last_case t) as [-> | (m & z & ->)]; [discriminate|].
    assert (z0 = z) as ->.
    { assert (l = length (a :: m)) as ->.
      { unfold usub in El. destruct (length (a :: m ++ [z]) <? 1); [discriminate|]. injection El as <-. cbn [length]. rewrite app_length. cbn [length]. lia. }
      unfold idx in Ez. change (a :: m ++ [z]) with ((a :: m) ++ [z]) in Ez.
      rewrite nth_error_app2 in Ez by apply le_n. rewrite Nat.sub_diag in Ez.
      injection Ez as <-. reflexivity. }
    rewrite each_comp_spec in E. injection E as <-. apply Forall_forall. intros [k q] Hq.
    pose proof (proj1 (Forall_forall _ _) Hsh _ Hq) as [Hi Hl]. destruct Hp as [Hp1 _]. rewrite Ec in Hp1.
    destruct (HPcomps _ _ _ _ _ Hp1 Ha Hz Hq) as [Hk HPq]. split; auto. cbn [snd] in *. apply Hg; auto.
    pose proof (pin_comp _ _ Hpin) as Hcc. rewrite Ec in Hcc. apply infix_length in Hcc. lia. }
  apply bind_ok in H as (c & Ec0 & H). apply bind_ok in H as (l & El & H). apply bind_ok in H as (z & Ez & H).
  change (idx (a :: t) 0) with (@Ok N a) in Ec0. injection Ec0 as <-. specialize (Hcs l z El Ez).
  assert (Hd : Ok (value_default, path_default) = Ok (v, p') -> kept v /\ kpath p').
  { intros E. injection E as <- <-. split; [apply kept_default | split; intros; exact HPnil]. }
  destruct (a =? cLBRK)%N eqn:Ea.
  - destruct (negb (z =? cRBRK)%N) eqn:Ezz; [auto|]. specialize (Hcs ltac:(change cRBRK with 93%N in Ezz; lia)).
    apply bind_ok in H as (cs & Ecs & H). apply bind_ok in H as ([o n] & Em & H). rewrite json_from_owned_eq in H. cbn [bind] in H.
    injection H as <- <-. split; auto.
    apply multi_arr_kept in Em as (ys & Hys & E); auto; [|eapply Forall_impl; [|apply (Hcs _ Ecs)]; intros ? [_ ?]; auto].
    change ([cLBRK], 0) with ([91%N], 0) in E. pose proof (I_array ys Hys) as Hgd. rewrite <- E in Hgd. exact Hgd.
  - destruct ((a =? cLBRC)%N && negb (z =? cRBRC)%N) eqn:Ezz; [auto|].
    specialize (Hcs ltac:(change cRBRC with 125%N in Ezz; change cLBRC with 123%N in Ezz; change cLBRK with 91%N in Ea; lia)).
    apply bind_ok in H as (cs & Ecs & H). apply bind_ok in H as ([o n] & Em & H). rewrite json_from_owned_eq in H. cbn [bind] in H.
    injection H as <- <-. split; auto.
    apply multi_obj_kept in Em as (ys & Hys & E); auto.
    change ([cLBRC], 0) with ([123%N], 0) in E. pose proof (I_object ys Hys) as Hgd. rewrite <- E in Hgd. exact Hgd.
Qed.

Theorem get_kept : forall n text, length text <= n -> PP text -> keeps get text.
Proof.
  induction n as [n IH] using lt_wf_ind. intros text Hn HP json v Hj. rewrite get_spec.
  pose proof (HPlines text HP) as Ht.
  destruct (split_lines text) as [lines t] eqn:El. apply split_lines_infix in El. cbn [snd] in Ht. cbv zeta.
  pose proof (pin_pnext t) as Hpin. pose proof (HPnext t Ht) as Hp. pose proof (infix_length _ _ El) as Hlen.
  assert (Hg : forall t', length t' < length t -> PP t' -> keeps get t').
  { intros t' Ht' HPt'. apply (IH (length t')); auto. lia. }
  intros H. apply bind_ok in H as ([v0 p'] & E & H).
  pose proof (lget_first_pin _ _ _ _ _ _ _ Hpin E) as Hpin'.
  assert (Hv : kept v0 /\ kpath p').
  { unfold lget_first in E. destruct lines.
    - eapply larr_kept; [exact Hpin | exact Hp | exact Hg | | exact E]. apply I_elems; auto. discriminate.
    - destruct (is_modifier (pnext t)) eqn:Emd.
      { destruct (HPmod t json v0 p' Ht Emd Hj E) as [Hv ->]. auto. }
      destruct (is_multipath (pnext t)) eqn:Emp; [exact (multi_exec_kept get t json (pnext t) v0 p' Emp Hpin Hp Hj Hg E)|].
      exact (lstart_kept get t json (pnext t) v0 p' Hg Hj Hpin Hp E). }
  destruct Hv as [Hv Hp']. destruct (p_more p') eqn:Em; cbn [negb] in H; [|injection H as <-; exact Hv].
  eapply kept_get; [|exact Hv | exact H]. apply Hg; [|apply Hp', Em]. apply (pin_short _ _ Hpin' Em).
Qed.
End Keep.

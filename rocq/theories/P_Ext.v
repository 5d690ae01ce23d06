(** [get] calls itself on shorter paths only; hence the fuel of the model is
    irrelevant and [get] satisfies its recursion equation. *)
From Verif Require Import P_Base P_Valid P_Str P_Glob P_Scan P_Each P_Path P_LGet P_Parts
  M_Util M_Num M_Scan M_Value M_Path M_Pretty M_Get.

(** The paths found while working on [text]. *)
Record pin (text : bytes) (p : path) : Prop := mkPin {
  pin_comp : infix (p_comp p) text;
  pin_extra : infix (p_extra p) text;
  pin_short : p_more p = true -> length (p_extra p) < length text;
}.

Lemma pin_default text : pin text path_default.
Proof. constructor; cbn; auto using infix_nil. discriminate. Qed.
Lemma pin_pnext text : pin text (pnext text).
Proof.
  pose proof (pnext_shape text) as H. constructor;
    [apply shape_comp_infix | apply shape_extra_infix | apply shape_extra_short]; auto.
Qed.
Lemma pin_weak a b p : infix a b -> pin a p -> pin b p.
Proof.
  intros Hi [H1 H2 H3]. constructor; [eapply infix_trans; eauto | eapply infix_trans; eauto |].
  intros Hm. specialize (H3 Hm). apply infix_length in Hi. lia.
Qed.
Lemma pin_next text p : pin text p -> pin text (pnext (p_extra p)).
Proof. intros H. apply (pin_weak (p_extra p)); [apply (pin_extra _ _ H) | apply pin_pnext]. Qed.
Lemma pin_group text p g r : pin text p -> (p_sep p =? 46)%N = true -> group (p_extra p) = (g, r) ->
  pin text r /\ infix g text /\ length g < length text.
Proof.
  intros [H1 H2 H3] Hs Hg. pose proof (group_shape _ _ _ Hg) as [Hc _]. apply group_length in Hg as (L1 & L2 & L3 & L4).
  specialize (H3 (sep_dot_more _ Hs)). split; [|split].
  - constructor.
    + rewrite Hc. apply infix_nil.
    + eapply infix_trans; eauto.
    + intros Hm. specialize (L4 Hm). lia.
  - eapply infix_trans; eauto.
  - lia.
Qed.

Lemma split_lines_infix text lines t : split_lines text = (lines, t) -> infix t text.
Proof.
  unfold split_lines. destruct text as [|a [|b u]]; intros H; try (injection H as <- <-; apply infix_refl).
  destruct ((a =? cDOT)%N && (b =? cDOT)%N); injection H as <- <-; [|apply infix_refl].
  apply infix_suf. exists [a; b]. reflexivity.
Qed.

(* ---------- what the lookups return as the remaining path ---------- *)

Lemma bind_ok {A B} (m : R A) (k : A -> R B) b : bind m k = Ok b -> exists a, m = Ok a /\ k a = Ok b.
Proof. destruct m as [a|e]; [eauto | discriminate]. Qed.

Lemma larr_pin g text json lines l p v p' : pin text p -> larr g json lines l p = Ok (v, p') -> pin text p'.
Proof.
  intros Hp. unfold larr. cbv zeta. destruct (p_comp p) as [|c t].
  { intros H. injection H as _ <-. auto. }
  destruct (c =? 35)%N; [|intros H; injection H as _ <-; auto].
  assert (Hg : forall gr rest, next_group p = Ok (gr, rest) -> pin text rest).
  { intros gr rest. rewrite next_group_spec. destruct (p_sep p =? 46)%N eqn:Es.
    - intros H. injection H as H. eapply pin_group; eauto.
    - intros H. injection H as <- <-. auto. }
  destruct t as [|d t'].
  - destruct (p_sep p =? 46)%N.
    + intros H. apply bind_ok in H as ([gr rest] & E & H). apply bind_ok in H as (st & _ & H).
      injection H as _ <-. eapply Hg; eauto.
    + intros H. injection H as _ <-. auto.
  - destruct (last (d :: t') 0 =? 35)%N.
    + intros H. apply bind_ok in H as ([[lh op] rh] & _ & H). apply bind_ok in H as ([gr rest] & E & H).
      apply bind_ok in H as (st & _ & H). injection H as _ <-. eapply Hg; eauto.
    + intros H. apply bind_ok in H as ([[lh op] rh] & _ & H). apply bind_ok in H as (x & _ & H).
      injection H as _ <-. auto.
Qed.

Lemma lobj_loop_pin text lsub json p : pin text p ->
  (forall r v p', lsub r = Ok (LReturn v p') -> pin text p') ->
  forall fuel l v p', lobj_loop fuel lsub json l p = Ok (v, p') -> pin text p'.
Proof.
  intros Hp Hsub. induction fuel as [|fuel IH]; intros l v p'; cbn [lobj_loop]; [discriminate|].
  assert (Hd : forall v0, Ok (v0, p) = Ok (v, p') -> pin text p') by (intros v0 H; injection H as _ <-; auto).
  destruct l as [|c t]; [apply Hd|]. destruct (c =? 125)%N; [apply Hd|]. destruct (negb (c =? 34)%N); [apply IH|].
  destruct (split_str t) as [[b r0]|]; [|apply Hd]. cbv zeta.
  destruct (dropw colon_stop r0) as [|c' t']; [apply Hd|].
  assert (Hf : (if kmatch p b && v_exists (fval json (c' :: t')) then Ok (fval json (c' :: t'), p)
                else lobj_loop fuel lsub json (lrest (c' :: t')) p) = Ok (v, p') -> pin text p').
  { destruct (kmatch p b && v_exists (fval json (c' :: t'))); [apply Hd | apply IH]. }
  destruct (kmatch p b && (p_sep p =? 46)%N && container c'); auto.
  intros H. apply bind_ok in H as (d & E & H). destruct d as [v1 p1| |]; auto.
  - injection H as <- <-. eapply Hsub; eauto.
  - eapply IH; eauto.
Qed.

Lemma lobj_pin g text json : forall fuel l p v p', pin text p -> lobj fuel g json l p = Ok (v, p') -> pin text p'.
Proof.
  induction fuel as [|fuel IH]; intros l p v p' Hp; cbn [lobj]; [discriminate|].
  assert (Hd : forall v0, Ok (v0, p) = Ok (v, p') -> pin text p') by (intros v0 H; injection H as _ <-; auto).
  destruct l as [|c t]; [apply Hd|]. destruct (negb (c =? 123)%N); [apply Hd|].
  apply lobj_loop_pin; auto. intros r v1 p1. cbv zeta.
  pose proof (pin_next _ _ Hp) as Hq.
  destruct (is_modifier (pnext (p_extra p)) || is_multipath (pnext (p_extra p))); [discriminate|].
  intros H. apply bind_ok in H as ([v2 p2] & E & H). destruct (v_exists v2); [|discriminate].
  injection H as <- <-. destruct r as [|c' t']; [discriminate|].
  destruct (c' =? 123)%N; [eapply IH; eauto | eapply larr_pin; eauto].
Qed.

Lemma lget_first_pin g text json lines p v p' : pin text p -> lget_first g json lines p = Ok (v, p') -> pin text p'.
Proof.
  intros Hp. unfold lget_first. destruct lines; [apply larr_pin; auto|].
  destruct (is_modifier p).
  { unfold mod_exec. intros H. apply bind_ok in H as ([n a] & _ & H). apply bind_ok in H as (o & _ & H).
    apply bind_ok in H as (w & _ & H). injection H as _ <-. auto. }
  destruct (is_multipath p).
  { unfold multi_exec. intros H. apply bind_ok in H as (c & _ & H). apply bind_ok in H as (l & _ & H).
    apply bind_ok in H as (z & _ & H). destruct (c =? cLBRK)%N.
    - destruct (negb (z =? cRBRK)%N); [injection H as _ <-; apply pin_default|].
      apply bind_ok in H as (cs & _ & H). apply bind_ok in H as ([o n] & _ & H). apply bind_ok in H as (w & _ & H).
      injection H as _ <-. auto.
    - destruct ((c =? cLBRC)%N && negb (z =? cRBRC)%N); [injection H as _ <-; apply pin_default|].
      apply bind_ok in H as (cs & _ & H). apply bind_ok in H as ([o n] & _ & H). apply bind_ok in H as (w & _ & H).
      injection H as _ <-. auto. }
  unfold lstart. cbv zeta. destruct (dropw above_sp json) as [|c t]; [intros H; injection H as _ <-; auto|].
  destruct (c =? 123)%N; [apply lobj_pin; auto|]. destruct (c =? 91)%N; [apply larr_pin; auto|].
  intros H; injection H as _ <-; auto.
Qed.

(* ---------- congruence ---------- *)

Definition same (g1 g2 : getter) (t : bytes) : Prop := forall j, g1 j t = g2 j t.

Lemma v_get_with_ext g1 g2 v t : same g1 g2 t -> v_get_with g1 v t = v_get_with g2 v t.
Proof. intros H. unfold v_get_with. destruct (v_slice v); rewrite H; reflexivity. Qed.

Lemma elem_matches_ext g1 g2 v lh op rh : lh = [] \/ same g1 g2 lh ->
  elem_matches g1 v lh op rh = elem_matches g2 v lh op rh.
Proof.
  intros [-> | H]; [reflexivity|]. unfold elem_matches. destruct lh; [reflexivity|].
  rewrite (v_get_with_ext g1 g2); auto.
Qed.

Lemma find_r_ext f1 f2 l : (forall v, f1 v = f2 v) -> find_r f1 l = find_r f2 l.
Proof. intros H. induction l as [|v l IH]; auto. cbn [find_r]. rewrite H, IH. reflexivity. Qed.
Lemma push_all_ext f1 f2 l : (forall v, f1 v = f2 v) -> forall st, push_all f1 l st = push_all f2 l st.
Proof.
  intros H. induction l as [|v l IH]; intros st; auto. cbn [push_all]. rewrite H.
  destruct (f2 v) as [o|]; cbn [bind]; auto.
Qed.

Lemma bind_ext {A B} (m1 m2 : R A) (k1 k2 : A -> R B) : m1 = m2 -> (forall a, m2 = Ok a -> k1 a = k2 a) ->
  bind m1 k1 = bind m2 k2.
Proof. intros -> H. destruct m2 as [a|e]; cbn [bind]; auto. Qed.

Lemma each_comp_short comp cs : each_comp comp = Ok cs -> Forall (fun kp => infix (snd kp) comp /\ length (snd kp) < length comp) cs.
Proof.
  intros H. destruct comp as [|a t]; [discriminate|].
  destruct (app_last_case t) as [-> | (p & z & ->)].
  { discriminate. }
  rewrite each_comp_spec in H. injection H as <-. apply Forall_forall. intros kp Hkp.
  pose proof (comps_infix _ _ Hkp) as Hi. split.
  - eapply infix_trans; [exact Hi|]. exists [a], [z]. reflexivity.
  - apply infix_length in Hi. cbn [length]. rewrite app_length. lia.
Qed.

Section Ext.
Context (g1 g2 : getter) (text : bytes).
Context (Hrec : forall t, length t < length text -> same g1 g2 t).

Lemma larr_ext json lines l p : pin text p -> larr g1 json lines l p = larr g2 json lines l p.
Proof.
  intros Hp. unfold larr. cbv zeta. destruct (p_comp p) as [|c t] eqn:Ec; auto. rewrite <- Ec.
  destruct (c =? 35)%N; auto.
  destruct (query_parts_ok (p_comp p)) as (lh & op & rh & Eq & _ & _ & Hlh). rewrite Eq.
  assert (Hlh' : lh = [] \/ same g1 g2 lh).
  { destruct Hlh as [H|[H _]]; auto. right. apply Hrec. pose proof (infix_length _ _ (pin_comp _ _ Hp)). lia. }
  rewrite next_group_spec. cbn [bind].
  destruct (p_sep p =? 46)%N eqn:Es.
  - destruct (group (p_extra p)) as [gr rest] eqn:Eg. destruct (pin_group _ _ _ _ Hp Es Eg) as (_ & _ & Hgr).
    specialize (Hrec gr Hgr). destruct t as [|d t'].
    + apply bind_ext; auto. apply push_all_ext. intros v. rewrite (v_get_with_ext g1 g2); auto.
    + destruct (last (d :: t') 0 =? 35)%N.
      * apply bind_ext; auto. apply push_all_ext. intros v. rewrite (elem_matches_ext g1 g2), (v_get_with_ext g1 g2); auto.
      * apply bind_ext; auto. apply find_r_ext. intros v. apply elem_matches_ext; auto.
  - destruct t as [|d t']; auto. destruct (last (d :: t') 0 =? 35)%N.
    + apply bind_ext; auto. apply push_all_ext. intros v. rewrite (elem_matches_ext g1 g2); auto.
    + apply bind_ext; auto. apply find_r_ext. intros v. apply elem_matches_ext; auto.
Qed.

Lemma lobj_loop_ext s1 s2 json p : ((p_sep p =? 46)%N = true -> forall r, s1 r = s2 r) ->
  forall fuel l, lobj_loop fuel s1 json l p = lobj_loop fuel s2 json l p.
Proof.
  intros H. induction fuel as [|fuel IH]; intros l; auto. cbn [lobj_loop].
  destruct l as [|c t]; auto. destruct (c =? 125)%N; auto. destruct (negb (c =? 34)%N); auto.
  destruct (split_str t) as [[b r0]|]; auto. cbv zeta. destruct (dropw colon_stop r0) as [|c' t']; auto.
  rewrite !IH. destruct (p_sep p =? 46)%N; [|rewrite andb_false_r; reflexivity].
  rewrite H by auto. reflexivity.
Qed.

Lemma lobj_ext json : forall fuel l p, pin text p -> lobj fuel g1 json l p = lobj fuel g2 json l p.
Proof.
  induction fuel as [|fuel IH]; intros l p Hp; auto. cbn [lobj]. destruct l as [|c t]; auto.
  destruct (negb (c =? 123)%N); auto. apply lobj_loop_ext. intros _ r. cbv zeta.
  destruct (is_modifier (pnext (p_extra p)) || is_multipath (pnext (p_extra p))); auto.
  apply bind_ext; auto. pose proof (pin_next _ _ Hp) as Hq. destruct r as [|c' t']; auto.
  destruct (c' =? 123)%N; [apply IH; auto | apply larr_ext; auto].
Qed.

Lemma lstart_ext json p : pin text p -> lstart g1 json p = lstart g2 json p.
Proof.
  intros Hp. unfold lstart. cbv zeta. destruct (dropw above_sp json) as [|c t]; auto.
  rewrite lobj_ext, larr_ext; auto.
Qed.

Lemma multi_arr_ext json cs : Forall (fun kp => same g1 g2 (snd kp)) cs ->
  forall st, multi_arr g1 json cs st = multi_arr g2 json cs st.
Proof.
  induction 1 as [|[k p] cs H _ IH]; intros st; auto. cbn [multi_arr]. cbn [snd] in H. rewrite (H json).
  destruct (g2 json p); cbn [bind]; auto.
Qed.
Lemma multi_obj_ext json cs : Forall (fun kp => same g1 g2 (snd kp)) cs ->
  forall st, multi_obj g1 json cs st = multi_obj g2 json cs st.
Proof.
  induction 1 as [|[k p] cs H _ IH]; intros st; auto. cbn [multi_obj]. cbn [snd] in H. rewrite (H json).
  destruct (g2 json p); cbn [bind]; auto. destruct st as [out index]. auto.
Qed.

Lemma multi_exec_ext json p : pin text p -> multi_exec g1 json p = multi_exec g2 json p.
Proof.
  intros Hp. unfold multi_exec.
  assert (Hc : forall cs, each_comp (p_comp p) = Ok cs -> Forall (fun kp => same g1 g2 (snd kp)) cs).
  { intros cs H. apply each_comp_short in H. eapply Forall_impl; [|exact H]. intros kp [_ Hl]. apply Hrec.
    pose proof (infix_length _ _ (pin_comp _ _ Hp)). lia. }
  apply bind_ext; auto. intros c _. apply bind_ext; auto. intros l _. apply bind_ext; auto. intros z _.
  destruct (c =? cLBRK)%N.
  - destruct (negb (z =? cRBRK)%N); auto. apply bind_ext; auto. intros cs Hcs.
    rewrite (multi_arr_ext json cs); auto.
  - destruct ((c =? cLBRC)%N && negb (z =? cRBRC)%N); auto. apply bind_ext; auto. intros cs Hcs.
    rewrite (multi_obj_ext json cs); auto.
Qed.

End Ext.

(** The option names of the modifiers. *)
Definition optnames : list bytes := [s_indent; s_prefix; s_sortKeys; s_width; s_preserve; s_deep].

Lemma v_each_ext {S} v (f g : S -> value -> value -> R (S * bool)) st :
  (forall st k x, f st k x = g st k x) -> v_each v f st = v_each v g st.
Proof.
  intros H. rewrite !v_each_spec. destruct (negb (v_exists v)); auto.
  destruct (v_kind v); try (rewrite H; reflexivity); apply run_ext; auto.
Qed.

Lemma mod_flatten_ext g1 g2 arg : same g1 g2 s_deep ->
  forall fuel json, mod_flatten fuel g1 json arg = mod_flatten fuel g2 json arg.
Proof.
  intros H. induction fuel as [|fuel IH]; intros json; auto. cbn [mod_flatten].
  apply bind_ext; auto. intros res _. destruct (negb (kind_eqb (v_kind res) KArray)); auto.
  rewrite (H arg). apply bind_ext; auto. intros dv _. apply bind_ext; auto. intros deep _.
  apply bind_ext; auto. apply v_each_ext. intros [out n] k x. rewrite IH. reflexivity.
Qed.

Lemma mod_exec_ext g1 g2 json p : (forall t, In t optnames -> same g1 g2 t) ->
  mod_exec g1 json p = mod_exec g2 json p.
Proof.
  intros H. unfold mod_exec. apply bind_ext; auto. intros [name arg] _. apply bind_ext; auto.
  unfold mod_apply. repeat (match goal with |- (if ?b then _ else _) = (if ?b then _ else _) => destruct b; auto end).
  - unfold mod_pretty. rewrite !(H _) by (cbn [optnames In]; tauto). reflexivity.
  - apply mod_flatten_ext. apply H. cbn [optnames In]. tauto.
  - unfold mod_join. rewrite (H s_preserve) by (cbn [optnames In]; tauto). reflexivity.
Qed.

Lemma get_body_ext g1 g2 json text :
  (forall t, length t < length text -> same g1 g2 t) -> (forall t, In t optnames -> same g1 g2 t) ->
  get_body g1 json text = get_body g2 json text.
Proof.
  intros H1 H2. rewrite !get_body_spec. destruct (split_lines text) as [lines t] eqn:E.
  apply split_lines_infix in E. pose proof (pin_weak _ _ _ E (pin_pnext t)) as Hp.
  apply bind_ext.
  - unfold lget_first. destruct lines; [apply larr_ext with (text := text); auto|].
    destruct (is_modifier (pnext t)); [apply mod_exec_ext; auto|].
    destruct (is_multipath (pnext t)); [apply multi_exec_ext with (text := text); auto|].
    apply lstart_ext with (text := text); auto.
  - intros [v p] Ev. apply lget_first_pin with (text := text) in Ev; auto.
    destruct (p_more p) eqn:Em; cbn [negb]; auto. apply v_get_with_ext. apply H1. apply Ev. exact Em.
Qed.

(** Looking up an option name makes no recursive call. *)
Lemma opt_path t : In t optnames -> split_lines t = (false, t) /\ pnext t = mkPath t false false 0 0 [] /\
  is_modifier (pnext t) = false /\ is_multipath (pnext t) = false /\ hd 0%N t <> 35%N /\ t <> [] /\ ~ In 64%N t.
Proof.
  cbn [optnames In]. intros H.
  repeat (destruct H as [<-|H]; [vm_compute; repeat split; try discriminate; intuition discriminate|]). contradiction.
Qed.

Lemma get_body_opt g1 g2 json t : In t optnames -> get_body g1 json t = get_body g2 json t.
Proof.
  intros H. destruct (opt_path t H) as (E1 & E2 & E3 & E4 & E5 & E6 & _). rewrite !get_body_spec, E1.
  unfold lget_first. rewrite E3, E4, E2. clear E3 E4 E2. apply bind_ext.
  - unfold lstart. cbv zeta. destruct (dropw above_sp json) as [|c u]; auto.
    destruct (c =? 123)%N.
    + cbn [lobj]. destruct (negb (c =? 123)%N); auto; apply lobj_loop_ext; cbn; discriminate.
    + destruct (c =? 91)%N; auto. unfold larr. cbn [p_comp]. destruct t as [|x y]; auto. cbn [hd] in E5.
      destruct (N.eqb_spec x 35); [congruence|reflexivity].
  - intros [v p] Ev. assert (Hp : p_more p = false); [|rewrite Hp; reflexivity].
    (* the remaining path is the initial one *)
    unfold lstart in Ev. cbv zeta in Ev. destruct (dropw above_sp json) as [|c u]; [injection Ev as _ <-; reflexivity|].
    destruct (c =? 123)%N.
    + cbn [lobj] in Ev. destruct (negb (c =? 123)%N); [injection Ev as _ <-; reflexivity|].
      assert (G : forall s fuel l v p, lobj_loop fuel s json l (mkPath t false false 0 0 []) = Ok (v, p) -> p_more p = false).
      { clear. intros s. induction fuel as [|fuel IH]; intros l v p; cbn [lobj_loop]; [discriminate|].
        assert (D : forall v0, Ok (v0, mkPath t false false 0 0 []) = Ok (v, p) -> p_more p = false)
          by (intros v0 E; injection E as _ <-; reflexivity).
        destruct l as [|c l]; [apply D|]. destruct (c =? 125)%N; [apply D|]. destruct (negb (c =? 34)%N); [apply IH|].
        destruct (split_str l) as [[b r0]|]; [|apply D]. cbv zeta.
        destruct (dropw colon_stop r0) as [|c' t']; [apply D|]. cbn [p_sep N.eqb]. rewrite andb_false_r. cbn [andb].
        destruct (kmatch _ b && v_exists _); [apply D | apply IH]. }
      eapply G; exact Ev.
    + destruct (c =? 91)%N; [|injection Ev as _ <-; reflexivity].
      unfold larr in Ev. cbn [p_comp] in Ev. destruct t as [|x y]; [congruence|]. cbn [hd] in E5.
      destruct (N.eqb_spec x 35); [congruence|]. injection Ev as _ <-. reflexivity.
Qed.

Definition enough (fuel : nat) (t : bytes) : Prop := length t + 2 <= fuel \/ (In t optnames /\ 1 <= fuel).

Lemma get_fuel_enough : forall n m t, enough n t -> enough m t -> same (get_fuel n) (get_fuel m) t.
Proof.
  induction n as [|n IH]; intros m t Hn Hm j.
  { destruct Hn as [H|[_ H]]; lia. }
  destruct m as [|m]; [destruct Hm as [H|[_ H]]; lia|]. cbn [get_fuel].
  destruct Hn as [Hn|[Hin _]]; [|apply get_body_opt; auto].
  destruct Hm as [Hm|[Hin _]]; [|apply get_body_opt; auto].
  apply get_body_ext.
  - intros t' Ht. apply IH; left; lia.
  - intros t' Ht. apply IH; right; split; auto; lia.
Qed.

(** The recursion equation. *)
Theorem get_eq json text : get json text = get_body get json text.
Proof.
  unfold get at 1. change (get_body (get_fuel (S (length text))) json text = get_body get json text). apply get_body_ext.
  - intros t Ht j. unfold get. apply get_fuel_enough; left; lia.
  - intros t Ht j. unfold get. apply get_fuel_enough; [right; split; auto; lia | left; lia].
Qed.

Lemma get_spec json text :
  get json text =
    let '(lines, text) := split_lines text in
    '(res, p) <- lget_first get json lines (pnext text) ;;
    if negb (p_more p) then Ok res else v_get res (p_extra p).
Proof. rewrite get_eq, get_body_spec. reflexivity. Qed.

(** The object loop and the array functions on syntax trees. *)
From Verif Require Import P_Base P_Json P_Valid P_Str P_Glob P_Scan P_Each P_Doc P_Path P_LGet P_Parts P_Ext P_Value P_Key
  M_Util M_Num M_Scan M_Value M_Path M_Get S_Json S_Get S_Path.

Lemma lobj_loop_fuel lsub json p : forall f1 f2 l, length l < f1 -> length l < f2 ->
  lobj_loop f1 lsub json l p = lobj_loop f2 lsub json l p.
Proof.
  induction f1 as [|f1 IH]; intros [|f2] l H1 H2; try lia. cbn [lobj_loop]. destruct l as [|c t]; auto.
  cbn [length] in *. destruct (c =? 125)%N; auto.
  destruct (negb (c =? 34)%N); [apply IH; lia|].
  destruct (split_str t) as [(b, r0)|] eqn:Es; auto. apply split_rest in Es as [_ Hl].
  pose proof (dropw_length colon_stop r0) as Hd. cbv zeta. destruct (dropw colon_stop r0) as [|c' t'] eqn:Er; auto.
  destruct (lrest_suf (c' :: t')) as [_ Hll]. specialize (Hll ltac:(discriminate)).
  assert (E1 : lobj_loop f1 lsub json (lrest (c' :: t')) p = lobj_loop f2 lsub json (lrest (c' :: t')) p) by (apply IH; lia).
  assert (E2 : lobj_loop f1 lsub json (c' :: t') p = lobj_loop f2 lsub json (c' :: t') p) by (apply IH; lia).
  rewrite E1. destruct (_ && _ && _); auto.
  destruct (lsub (c' :: t')) as [[]|]; cbn [bind]; auto.
Qed.

Definition lloop (lsub : bytes -> R ldescent) (json l : bytes) (p : path) : R (value * path) :=
  lobj_loop (S (length l)) lsub json l p.
Lemma lobj_lloop f lsub json l p : length l < f -> lobj_loop f lsub json l p = lloop lsub json l p.
Proof. intros H. apply lobj_loop_fuel; lia. Qed.

Definition plain_skip (c : N) : Prop := c <> 125%N /\ c <> 34%N.
Lemma ws_plain_skip w : ws w -> Forall plain_skip w.
Proof. apply Forall_impl. intros c H. unfold ws_byte in H. unfold plain_skip. lia. Qed.

Lemma colon_gap b c h t : ws b -> ws c -> colon_stop h = true -> dropw colon_stop (b ++ 58%N :: c ++ h :: t) = h :: t.
Proof.
  intros Hb Hc Hh. assert (Hw : forall w, ws w -> Forall (fun x => colon_stop x = false) w).
  { intros w. apply Forall_impl. intros x H. unfold ws_byte in H. unfold colon_stop. lia. }
  rewrite dropw_app by auto. cbn [dropw]. change (colon_stop 58) with false. cbv match.
  rewrite dropw_app by auto. cbn [dropw]. rewrite Hh. reflexivity.
Qed.

Lemma render_colon_head v : wf v -> exists h t, render v = h :: t /\ colon_stop h = true /\ container h = is_container v.
Proof.
  intros H. destruct v as [ | | |n|b|w es|w ms]; try (do 2 eexists; split; [reflexivity|]; split; reflexivity).
  inversion H; subst. destruct (number_head n) as (h & t & -> & Hh); auto. exists h, t. split; auto.
  unfold colon_stop, container, is_container. lia.
Qed.

Section Loop.
Context (lsub : bytes -> R ldescent) (json : bytes) (p : path).
Notation loop l := (lloop lsub json l p).

Lemma lloop_nil : loop [] = Ok (value_default, p).
Proof. reflexivity. Qed.
Lemma lloop_brace t : loop (125%N :: t) = Ok (value_default, p).
Proof. reflexivity. Qed.
Lemma lloop_skip c t : c <> 125%N -> c <> 34%N -> loop (c :: t) = loop t.
Proof.
  intros H1 H2. unfold lloop. cbn [lobj_loop length]. replace (c =? 125)%N with false by lia.
  replace (c =? 34)%N with false by lia. cbn [negb]. reflexivity.
Qed.
Lemma lloop_str t : loop (34%N :: t) =
  match split_str t with
  | None => Ok (value_default, p)
  | Some (b, r0) =>
      match dropw colon_stop r0 with
      | [] => Ok (value_default, p)
      | c' :: t' =>
          let flat := if kmatch p b && v_exists (fval json (c' :: t')) then Ok (fval json (c' :: t'), p)
                      else loop (lrest (c' :: t')) in
          if kmatch p b && (p_sep p =? 46)%N && container c' then
            d <- lsub (c' :: t') ;;
            match d with
            | LReturn v p' => Ok (v, p')
            | LSquash => flat
            | LNone => loop (c' :: t')
            end
          else flat
      end
  end.
Proof.
  unfold lloop at 1. cbn [length]. remember (S (length t)) as f eqn:Ef. cbn [lobj_loop N.eqb Pos.eqb negb].
  destruct (split_str t) as [(b, r0)|] eqn:Es; auto. apply split_rest in Es as [_ Hl].
  pose proof (dropw_length colon_stop r0) as Hd. cbv zeta. destruct (dropw colon_stop r0) as [|c' t'] eqn:Er; auto.
  destruct (lrest_suf (c' :: t')) as [_ Hll]. specialize (Hll ltac:(discriminate)).
  rewrite !lobj_lloop by (cbn [length] in *; lia). reflexivity.
Qed.

Lemma lloop_skips a t : Forall plain_skip a -> loop (a ++ t) = loop t.
Proof. induction 1 as [|c a [H1 H2] _ IH]; auto. cbn [app]. rewrite lloop_skip; auto. Qed.
(** One member. *)
Lemma lloop_memb a k b c v r : ws a -> chars k -> ws b -> ws c -> wf v -> follow r ->
  loop (a ++ quoted k ++ b ++ 58%N :: c ++ render v ++ r) =
  let flat := Ok (fval json (render v ++ r), p) in
  if kmatch p k then
    if (p_sep p =? 46)%N && is_container v then
      d <- lsub (render v ++ r) ;;
      match d with
      | LReturn v p' => Ok (v, p')
      | LSquash => flat
      | LNone => loop (render v ++ r)
      end
    else flat
  else loop r.
Proof.
  intros Ha Hk Hb Hc Hv Hr. rewrite lloop_skips by (apply ws_plain_skip; auto).
  rewrite quoted_app_cons, lloop_str, chars_split by auto.
  destruct (render_colon_head v Hv) as (h & t & E & Hh & Hco).
  assert (E' : render v ++ r = h :: (t ++ r)) by (rewrite E; reflexivity).
  rewrite E'. rewrite colon_gap by auto. rewrite <- E'. cbv zeta.
  rewrite Hco, (fval_render _ _ _ Hv Hr), tval_exists by auto. rewrite lrest_render by auto.
  destruct (kmatch p k); cbn [andb]; auto.
Qed.

(** Without a following dot: the first matching member. *)
Lemma lloop_find ms : forall r, Forall wf_memb ms -> follow r -> p_sep p <> 46%N ->
  match find (fun m => kmatch p (m_key m)) ms with
  | Some m => exists ix, loop (commas (map (render_memb render) ms) ++ r) = Ok (tval (m_val m) ix, p) /\ wf (m_val m)
  | None => loop (commas (map (render_memb render) ms) ++ r) = loop r
  end.
Proof.
  intros r Hms Hr Hs. induction Hms as [|m ms Hm Hms IH]; [reflexivity|].
  rewrite commas_tail_m. destruct Hm as [a k b c v d Ha Hk Hb Hc Hv Hd]. cbn [render_memb find m_key].
  rewrite <- ?app_assoc. cbn [app]. rewrite <- ?app_assoc.
  assert (Hf : follow (d ++ obj_tail ms r)) by (apply follow_ws; auto; apply obj_tail_follow; auto).
  rewrite lloop_memb by auto. cbv zeta. destruct (kmatch p k).
  - replace (p_sep p =? 46)%N with false by lia. cbn [andb]. rewrite fval_render by auto. eauto.
  - rewrite lloop_skips by (apply ws_plain_skip; auto).
    assert (E : loop (obj_tail ms r) = loop (commas (map (render_memb render) ms) ++ r)).
    { destruct ms; [reflexivity|]. cbn [obj_tail]. apply lloop_skip; discriminate. }
    rewrite E. exact IH.
Qed.
End Loop.

(** The nested lookup of [lobj]. *)
Definition lsub_of (fuel : nat) (getrec : getter) (json : bytes) (p : path) (r : bytes) : R ldescent :=
  let q := pnext (p_extra p) in
  if is_modifier q || is_multipath q then Ok LSquash
  else
    '(v, p') <- (match r with
                 | c :: _ => if (c =? 123)%N then lobj fuel getrec json r q
                             else larr getrec json false r q
                 | [] => Err EPanic
                 end) ;;
    Ok (if v_exists v then LReturn v p' else LNone).

Lemma lobj_eq fuel getrec json t p : length t <= length json ->
  lobj (S fuel) getrec json (123%N :: t) p = lloop (lsub_of fuel getrec json p) json t p.
Proof.
  intros H. rewrite <- (lobj_lloop (S (length json))) by lia. reflexivity.
Qed.

Lemma lobj_render fuel getrec json w ms r p : ws w -> suf (render (CObj w ms) ++ r) json ->
  lobj (S fuel) getrec json (render (CObj w ms) ++ r) p =
  lloop (lsub_of fuel getrec json p) json (commas (map (render_memb render) ms) ++ 125%N :: r) p.
Proof.
  intros Hw Hsuf. cbn [render] in *. rewrite <- app_comm_cons in *. apply suf_length in Hsuf. cbn [length] in Hsuf.
  rewrite lobj_eq by lia. rewrite <- !app_assoc. rewrite (lloop_skips _ _ _ w) by (apply ws_plain_skip; auto). reflexivity.
Qed.

Lemma lobj_find fuel getrec json w ms r p : wf (CObj w ms) -> p_sep p <> 46%N -> suf (render (CObj w ms) ++ r) json ->
  match find (fun m => kmatch p (m_key m)) ms with
  | Some m => exists ix, lobj (S fuel) getrec json (render (CObj w ms) ++ r) p = Ok (tval (m_val m) ix, p) /\ wf (m_val m)
  | None => lobj (S fuel) getrec json (render (CObj w ms) ++ r) p = Ok (value_default, p)
  end.
Proof.
  intros H Hs Hsuf. inversion H as [| | | | | |w' ms' Hw Hms]; subst. rewrite lobj_render by auto.
  pose proof (lloop_find (lsub_of fuel getrec json p) json p ms (125%N :: r) Hms ltac:(right; auto) Hs) as Hf.
  destruct (find _ ms); [exact Hf|]. rewrite Hf. apply lloop_brace.
Qed.

Lemma elems_arr json w es r : wf (CArr w es) ->
  elems json false (render (CArr w es) ++ r) = map (fval json) (item_sufs es (93%N :: r)).
Proof.
  intros H. unfold elems, fe_items. cbn [render]. rewrite <- app_comm_cons.
  f_equal. exact (items_arr w es r H).
Qed.

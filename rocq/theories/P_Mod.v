(** Modifiers at the start of a path. *)
From Verif Require Import P_Base P_Json P_Valid P_ValidSpec P_Str P_Glob P_Scan P_Each P_Doc P_Path P_LGet P_Parts P_Ext P_Total P_Value P_Num
  P_Key P_Find P_GetDoc P_GetArr P_Stream P_Closed P_Reach P_Taken P_Pipe
  M_Util M_Num M_Scan M_Value M_Path M_Valid M_Get S_Json S_Get S_Path S_Follow S_Taken S_Mod.

(* ---------- the component ---------- *)

Definition rest_ok (rest : bytes) : Prop := match rest with [] => True | s :: _ => is_sep s = true end.
Definition rest_sep (rest : bytes) : N := match rest with [] => 0%N | s :: _ => s end.

Lemma lrest_any c r : wf c -> match c with CArr _ _ | CObj _ _ | CStr _ => True | _ => False end ->
  lrest (render c ++ r) = r.
Proof.
  intros Hc Hk. unfold lrest.
  destruct c as [ | | |n|b|w es|w ms]; try contradiction.
  - inversion Hc; subst. cbn [render]. rewrite quoted_app_cons. cbn [lflat N.eqb Pos.eqb].
    rewrite chars_split by auto. reflexivity.
  - destruct (render (CArr w es)) as [|h t] eqn:E; [discriminate|].
    assert (h = 91%N) as -> by (cbn [render] in E; congruence).
    pose proof (sq_container _ _ _ r Hc E ltac:(auto)) as Hs.
    cbn [app lflat]. cbn [N.eqb Pos.eqb orb]. rewrite Hs. reflexivity.
  - destruct (render (CObj w ms)) as [|h t] eqn:E; [discriminate|].
    assert (h = 123%N) as -> by (cbn [render] in E; congruence).
    pose proof (sq_container _ _ _ r Hc E ltac:(auto)) as Hs.
    cbn [app lflat]. cbn [N.eqb Pos.eqb orb]. rewrite Hs. reflexivity.
Qed.

Definition name_byte (c : N) : Prop := c <> 46%N /\ c <> 124%N /\ c <> 58%N /\ c <> 92%N.

Lemma lpn_name n l : Forall name_byte n -> forall esc pat, exists pat',
  lpn true (n ++ l) esc pat = lpn true l esc pat'.
Proof.
  induction 1 as [|c n (H1 & H2 & H3 & H4) _ IH]; intros esc pat; [exists pat; reflexivity|].
  cbn [app lpn]. replace (c =? 92)%N with false by lia. replace (c =? 58)%N with false by lia. cbn [andb].
  destruct ((c =? 42) || (c =? 63))%N; [apply IH|].
  replace (is_sep c) with false by (unfold is_sep; lia). apply IH.
Qed.

Lemma lpn_rest rest esc pat : rest_ok rest ->
  lpn true rest esc pat = (tl rest, rest_sep rest, esc, pat, None).
Proof.
  destruct rest as [|s B]; [reflexivity|]. cbn [rest_ok rest_sep tl lpn]. intros Hs.
  unfold is_sep in *. replace (s =? 92)%N with false by lia. replace (s =? 58)%N with false by lia. cbn [andb].
  replace ((s =? 42) || (s =? 63))%N with false by lia. rewrite Hs. reflexivity.
Qed.

Lemma dropw_sep a rest : Forall (fun c => c <> 46%N /\ c <> 124%N) a -> rest_ok rest -> dropw is_sep (a ++ rest) = rest.
Proof.
  intros Ha Hr. induction Ha as [|c a (H1 & H2) _ IH].
  - destruct rest as [|s B]; [reflexivity|]. cbn [app dropw]. cbn [rest_ok] in Hr. rewrite Hr. reflexivity.
  - cbn [app dropw]. replace (is_sep c) with false by (unfold is_sep; lia). exact IH.
Qed.

Lemma lpn_arg a rest esc pat : mod_arg a -> rest_ok rest ->
  lpn true (58%N :: a ++ rest) esc pat = (tl rest, rest_sep rest, esc, pat, Some (58%N :: a ++ rest)).
Proof.
  intros Ha Hr. cbn [lpn]. change (58 =? 92)%N with false. change (58 =? 58)%N with true. cbn [andb]. cbv match.
  assert (E : forall c' t, a ++ rest = c' :: t ->
     (if ((c' =? 123) || (c' =? 91) || (c' =? 34))%N then lrest (a ++ rest) else dropw is_sep (a ++ rest)) = rest).
  { intros c' t E. destruct Ha as [c Hc Hk|a Hp Hh].
    - assert (Hb : ((c' =? 123) || (c' =? 91) || (c' =? 34))%N = true).
      { destruct c; try contradiction; cbn [render quoted app] in E; injection E as <- _; reflexivity. }
      rewrite Hb. apply lrest_any; auto.
    - assert (Hb : ((c' =? 123) || (c' =? 91) || (c' =? 34))%N = false).
      { destruct a as [|x a].
        - cbn [app] in E. subst rest. cbn [rest_ok] in Hr. unfold is_sep in Hr. lia.
        - cbn [app] in E. injection E as <- _. lia. }
      rewrite Hb. apply dropw_sep; auto. }
  destruct (a ++ rest) as [|c' t] eqn:Ea.
  - apply app_eq_nil in Ea as [-> ->]. reflexivity.
  - rewrite (E c' t eq_refl). destruct rest as [|s B]; [reflexivity|].
    cbn [rest_ok] in Hr. rewrite Hr. reflexivity.
Qed.

Lemma modifier_pnext name arg rest : mod_name name -> arg_ok arg -> rest_ok rest ->
  exists pat, pnext (modifier name arg ++ rest) =
    mkPath (modifier name arg) false pat (rest_sep rest) (match arg with None => 0 | Some _ => S (length name) end) (tl rest).
Proof.
  intros Hn Ha Hr.
  assert (Hsc : pnext (modifier name arg ++ rest) = lscan true (modifier name arg ++ rest)).
  { pose proof (pnext_eq (modifier name arg ++ rest)) as E. unfold path_next, modifier in E.
    cbn [app length Nat.ltb Nat.leb] in E. change (idx (64%N :: (name ++ _) ++ rest) 0) with (@Ok N 64%N) in E. cbn [bind] in E.
    change (64 =? cAT)%N with true in E. cbv match in E. rewrite path_next_scan_spec in E. injection E as E. symmetry. exact E. }
  rewrite Hsc. unfold lscan. clear Hsc.
  assert (Hup : rest_ok rest -> forall t, (if (rest_sep rest =? 0)%N then t ++ rest else upto (t ++ rest) (rest_sep rest :: tl rest)) = t).
  { intros Hr' t. destruct rest as [|s B]; [cbn; apply app_nil_r|]. cbn [rest_ok rest_sep tl] in *.
    rewrite (is_sep_nz s Hr'). apply upto_app. }
  unfold modifier. destruct (lpn_name (64%N :: name) (match arg with None => [] | Some a => 58%N :: a end ++ rest)) with (esc := false) (pat := false) as [pat' E].
  { constructor; [repeat split; discriminate | exact Hn]. }
  exists pat'. cbn [app] in E |- *. rewrite <- app_assoc. rewrite E. clear E.
  destruct arg as [a|].
  - rewrite <- app_comm_cons. rewrite lpn_arg by auto. cbn [marg_pos].
    f_equal.
    + specialize (Hup Hr (64%N :: name ++ 58%N :: a)). cbn [app] in Hup. rewrite <- app_assoc in Hup. exact Hup.
    + unfold pos. cbn [length]. rewrite app_length. cbn [length]. lia.
  - cbn [app]. rewrite lpn_rest by auto. cbn [marg_pos]. f_equal.
    specialize (Hup Hr (64%N :: name)). rewrite app_nil_r. exact Hup.
Qed.

Lemma get_modifier json name arg rest : mod_name name -> arg_ok arg -> rest_ok rest ->
  get json (modifier name arg ++ rest) =
    (out <- mod_apply get name json (arg_text arg) ;;
     match rest with [] => Ok (json_into_owned (lparse out)) | _ :: B => v_get (json_into_owned (lparse out)) B end).
Proof.
  intros Hn Ha Hr. rewrite get_spec.
  rewrite (split_lines_simple (modifier name arg) rest) by (split; [discriminate | cbn; discriminate]).
  destruct (modifier_pnext name arg rest Hn Ha Hr) as (pat & ->).
  set (p := mkPath _ _ _ _ _ _). unfold lget_first.
  assert (Hm : is_modifier p = true) by reflexivity. rewrite Hm. unfold mod_exec.
  assert (Hargs : (if p_marg p =? 0 then n <- slice_from (p_comp p) 1 ;; Ok (n, [])
     else n <- slice (p_comp p) 1 (p_marg p) ;; a <- slice_from (p_comp p) (p_marg p + 1) ;; Ok (n, a)) = Ok (name, arg_text arg)).
  { unfold p. cbn [p_marg p_comp]. unfold modifier. destruct arg as [a|]; cbn [Nat.eqb arg_text].
    - assert (E1 : slice (64%N :: name ++ 58%N :: a) 1 (S (length name)) = Ok name).
      { apply (slice_mid [64%N] name (58%N :: a)); reflexivity. }
      rewrite E1. cbn [bind]. rewrite slice_from_ok by (cbn [length]; rewrite app_length; cbn [length]; lia).
      cbn [bind]. replace (S (length name) + 1) with (length (64%N :: name ++ [58%N])) by (cbn [length]; rewrite app_length; cbn [length]; lia).
      replace (64%N :: name ++ 58%N :: a) with ((64%N :: name ++ [58%N]) ++ a) by (cbn [app]; rewrite <- app_assoc; reflexivity).
      rewrite skipn_app, skipn_all, Nat.sub_diag. reflexivity.
    - rewrite slice_from_ok by (cbn [length]; lia). cbn [bind skipn]. rewrite app_nil_r. reflexivity. }
  rewrite Hargs. cbn [bind]. destruct (mod_apply get name json (arg_text arg)) as [out|e]; [|reflexivity]. cbn [bind].
  rewrite parse_spec. cbn [bind]. unfold p_more. unfold p. cbn [p_sep p_extra].
  destruct rest as [|s B]; [reflexivity|]. cbn [rest_sep tl]. cbn [rest_ok] in Hr. rewrite (is_sep_nz s Hr). reflexivity.
Qed.

Lemma get_modifier_end json name arg : mod_name name -> arg_ok arg ->
  get json (modifier name arg) = (out <- mod_apply get name json (arg_text arg) ;; Ok (json_into_owned (lparse out))).
Proof. intros Hn Ha. rewrite <- (app_nil_r (modifier name arg)). apply (get_modifier json name arg []); auto. exact I. Qed.

(* ---------- unknown names ---------- *)

Definition known : list bytes := [n_this; n_reverse; n_ugly; n_pretty; n_valid; n_flatten; n_join].

Lemma beq_false a b : a <> b -> beq a b = false.
Proof. intros H. destruct (beq a b) eqn:E; auto. apply beq_eq in E. congruence. Qed.

Lemma mod_apply_unknown g name json arg : ~ In name known -> mod_apply g name json arg = Ok [].
Proof.
  intros H. unfold known in H. cbn [In] in H. unfold mod_apply.
  rewrite !beq_false by (intros ->; tauto). reflexivity.
Qed.

Lemma parse_nil_absent : absent (json_into_owned (lparse [])).
Proof. repeat split. Qed.

Lemma unknown_absent json name arg : mod_name name -> arg_ok arg -> ~ In name known ->
  exists v, get json (modifier name arg) = Ok v /\ absent v.
Proof.
  intros Hn Ha Hk. rewrite get_modifier_end by auto. rewrite mod_apply_unknown by auto. cbn [bind].
  eexists. split; [reflexivity | exact parse_nil_absent].
Qed.

(** Lookups behind a deep @flatten. *)
From Coq Require Import String List NArith ZArith Lia.
From Verif Require Import M_Base M_Util M_Value M_Get M_Valid S_Json S_Num S_Get S_Path S_Query S_Api S_Taken S_Same S_Multi S_Compose S_Mod S_ModText S_Eval S_Panic S_Filter S_Alike S_Tree S_Follow S_Rough S_Look S_Join.
From Verif Require Import P_Base P_Json P_Total P_Closed P_GetMod P_Taken P_Again P_Agree P_Mixed P_Laws P_GetDoc P_GetArr P_Value P_Eval P_Run P_Filter P_Doc P_Tree P_Rel P_Turn P_Merge.
From Verif Require P_ModText P_ModFlat P_ModJoin P_ModAny P_Look P_Rough P_Select P_ValidSpec P_Each.
From Verif Require Import S_Merge.
Import ListNotations. Open Scope list_scope. Open Scope nat_scope.

Lemma leaves_cons x l a b : leaves [x] a -> leaves l b -> leaves (x :: l) (a ++ b).
Proof.
  intros H Hl. inversion H as [|? xs ys ? zs K A L1 L2|? ? zs K L2]; subst; inversion L2; subst.
  - rewrite app_nil_r. eapply lv_array; eassumption.
  - apply lv_other; assumption.
Qed.
Lemma leaves_shows c : wf c -> forall x, shows x c -> returned x -> exists ys, leaves [x] ys /\ Forall2 (fun c y => shows y c /\ returned y) (flat_deep c) ys.
Proof.
  induction c as [| | |n|b|w es IH|w ms IH] using cst_ind'; intros Hc x Hx Rx;
    try (exists [x]; split; [apply lv_other; [rewrite (sh_kind _ _ Hx); discriminate|constructor]|constructor; [split; assumption|constructor]]).
  assert (Kx : v_kind x = KArray) by (rewrite (sh_kind _ _ Hx); reflexivity).
  destruct (array_elements x w es [] Hc Kx) as (zs & Ez & Fz). { rewrite app_nil_r. apply (sh_json _ _ Hx). }
  assert (Rz : Forall returned zs) by (apply Forall_forall; intros z Hz; exact (ret_elem x zs z Rx Ez Hz)).
  assert (Hw := wf_vals _ _ Hc).
  assert (A : exists ys, leaves zs ys /\ Forall2 (fun c y => shows y c /\ returned y) (flat_deep (CArr w es)) ys).
  { clear Ez Hx Rx Kx Hc. cbn [flat_deep]. induction Fz as [|e z es zs Hz Fz IHz]; [exists []; split; constructor|].
    inversion IH as [|? ? I1 I2]; subst. inversion Rz; subst. cbn [map] in Hw. inversion Hw; subst.
    destruct IHz as (ys & L & F); [assumption|assumption|assumption|]. destruct e as [a c b]. cbn [i_val] in *.
    match goal with R : returned z |- _ => destruct (I1 ltac:(assumption) z Hz R) as (ys1 & L1 & F1) end. exists (ys1 ++ ys). split; [apply leaves_cons; assumption|].
    cbn [flat_map]. apply Forall2_app; assumption. }
  destruct A as (ys & L & F). exists (ys ++ []). split; [|rewrite app_nil_r; exact F]. eapply lv_array; [exact Kx|exact Ez|exact L|constructor].
Qed.
Lemma leaves_one l ys : leaves l ys -> forall ys', leaves l ys' -> ys' = ys.
Proof.
  induction 1 as [|x xs ys l zs K A L1 IH1 L2 IH2|x l zs K O IH]; intros ys' O'; inversion O' as [|? xs' ? ? ? K' A' L1' L2'|? ? ? K' L2']; subst; try reflexivity; try contradiction.
  - rewrite A in A'. injection A' as <-. f_equal; auto.
  - f_equal. auto.
Qed.

Lemma deep_true : exists dv, get (arg_text (Some (bs "{""deep"":true}"))) s_deep = Ok dv /\ v_bool dv = Ok true.
Proof. eexists. split; [vm_compute; reflexivity|]. vm_compute. reflexivity. Qed.
Lemma deep_all s u l : valid s = Ok true -> taken s u -> v_kind u = KArray -> v_array u = Ok l ->
  exists L v ys, returned u /\ v_get u mDeep = Ok v /\ returned v /\ v_kind v = KArray /\ v_json v = render (tarr L) /\ wf (tarr L) /\ leaves l ys /\
    Forall2 (fun c y => shows y c /\ returned y) L ys.
Proof.
  intros Hv Ht Hk Hl. assert (Hu := taken_returned s u Ht).
  destruct (taken_presents s u Hv Ht) as [(X & K & _)|(c & Hc & [P1 P2 (r & Hr & Pj & _) _])]; [congruence|].
  assert (Hk0 := Hk). rewrite P2 in Hk. apply kind_arr in Hk as (w & es & ->). cbn [kind_of] in P2.
  destruct (array_elements u w es r Hc P2 Pj) as (l' & El & Fl). rewrite Hl in El. injection El as <-.
  destruct deep_true as (dv & G1 & G2).
  destruct (P_ModFlat.get_flatten_deep [] w es r (Some (bs "{""deep"":true}")) dv (Forall_nil _) Hc Hr deep_arg G1 G2) as (g & Eg & Sg).
  cbn [app] in Eg. rewrite <- Pj in Eg. change (modifier n_flatten (Some (bs "{""deep"":true}"))) with mDeep in Eg. destruct (vget_like u mDeep g Hu Eg) as (v & Ev & Sv).
  assert (A : exists ys, leaves l ys /\ Forall2 (fun c y => shows y c /\ returned y) (flat_deep (CArr w es)) ys).
  { assert (Rl : Forall returned l) by (apply Forall_forall; intros x Hx; exact (ret_elem u l x Hu Hl Hx)). assert (Hw := wf_vals _ _ Hc). clear - Fl Rl Hw. cbn [flat_deep].
    induction Fl as [|e z es zs Hz Fz IHz]; [exists []; split; constructor|]. inversion Rl; subst. cbn [map] in Hw. inversion Hw; subst.
    destruct IHz as (ys & L & F); [assumption|assumption|]. destruct e as [a c b]. cbn [i_val] in *.
    destruct (leaves_shows c) with (x := z) as (ys1 & L1 & F1); [assumption|assumption|assumption|]. exists (ys1 ++ ys). split; [apply leaves_cons; assumption|]. cbn [flat_map]. apply Forall2_app; assumption. }
  destruct A as (ys & L & F). exists (flat_deep (CArr w es)), v, ys. split; [exact Hu|]. split; [exact Ev|]. split; [eapply ret_vget; eauto|].
  split; [rewrite (sa_kind _ _ Sv); apply (sh_kind _ _ Sg)|]. split; [rewrite (sa_json _ _ Sv); apply (sh_json _ _ Sg)|]. split; [|split; [exact L|exact F]].
  apply wf_tarr. apply P_ModFlat.flat_deep_wf, Hc.
Qed.
Theorem deep_elements s u l : valid s = Ok true -> taken s u -> v_kind u = KArray -> v_array u = Ok l ->
  exists v xs ys, v_get u mDeep = Ok v /\ v_array v = Ok xs /\ leaves l ys /\ Forall2 same_answers xs ys.
Proof.
  intros Hv Ht Hk Hl. destruct (deep_all s u l Hv Ht Hk Hl) as (L & v & ys & Hu & Ev & Rv & Kv & Jv & Hw & Ly & F).
  destruct (array_elements v [] (bare_items L) [] Hw Kv) as (xs & Ex & Fx). { rewrite app_nil_r. exact Jv. }
  exists v, xs, ys. split; [exact Ev|]. split; [exact Ex|]. split; [exact Ly|].
  assert (Fx' : Forall2 (fun c x => shows x c) L xs). { rewrite <- (vals_bare L). clear - Fx. induction Fx; constructor; auto. }
  assert (R : Forall returned xs) by (apply Forall_forall; intros x Hx; exact (ret_elem v xs x Rv Ex Hx)).
  clear - Fx' F R. revert ys F. induction Fx' as [|c x L xs Hx Fx IH]; intros ys F; inversion F as [|? y ? ys' [Sy Ry] F']; subst; [constructor|].
  inversion R; subst. constructor; [|apply IH; assumption]. apply (shows_same x y c); assumption.
Qed.

Lemma then_mod M u v B x : whole M -> returned u -> returned v -> v_get u M = Ok v -> get (v_json v) B = Ok x ->
  exists y, v_get u (M ++ 124%N :: B) = Ok y /\ same_answers y x /\ returned y.
Proof.
  intros HM Hu Rv Ev Ex. rewrite (v_get_whole M HM u B), Ev. cbn [bind]. destruct (vget_like v B x Rv Ex) as (y & Ey & Sy). exists y.
  split; [exact Ey|]. split; [exact Sy|]. eapply ret_vget; eauto.
Qed.
Theorem deep_index s u l ys k n : valid s = Ok true -> taken s u -> v_kind u = KArray -> v_array u = Ok l -> leaves l ys ->
  digits1 k -> digits_val k = Z.of_nat n -> (Z.of_nat n < 2 ^ 63)%Z ->
  match nth_error ys n with
  | Some y => exists v, v_get u (mDeep ++ 124%N :: k) = Ok v /\ same_answers v y
  | None => exists v, v_get u (mDeep ++ 124%N :: k) = Ok v /\ v_exists v = false
  end.
Proof.
  intros Hv Ht Hk Hl Ho Hd Hn Hb. destruct (deep_all s u l Hv Ht Hk Hl) as (L & v & ys' & Hu & Ev & Rv & Kv & Jv & Hw & O & Fy).
  rewrite (leaves_one _ _ O _ Ho). clear Ho ys. destruct (arr_pieces [] (bare_items L) Hw) as (_ & r & Er & Pr). destruct (Pr []) as (ps & P & T). rewrite app_nil_r in P. rewrite vals_bare in T.
  fold (tarr L) in Er. rewrite Er in Jv. pose proof (nth_text ps _ n T) as N0. unfold piece in *.
  assert (Hi : index_key k n) by (apply ik_plain; auto).
  assert (Ik : look 0 (91%N :: r) [k] (nth_error ps n)).
  { pose proof (in_array 0 _ k n [] ps Hi P) as I0. destruct (nth_error ps n) as [p|].
    - apply (lk_found 0 [] _ [k] p); [constructor|exact I0].
    - apply (lk_nowhere 0 [] _ [k]); [constructor|exact I0]. }
  destruct (P_Look.look_get _ [k] _ ltac:(constructor; [apply digits_component, Hd|constructor]) ltac:(constructor; [apply Hd|constructor]) ltac:(discriminate) Ik) as (x & Ex & X).
  change (dotted [k]) with k in Ex. rewrite <- Jv in Ex. destruct (then_mod mDeep u v k x (stage_whole _ stage_deep) Hu Rv Ev Ex) as (y & Ey & Sy & Ry).
  destruct (nth_error ps n) as [p|] eqn:Ep.
  - destruct (nth_error L n) as [c|] eqn:Ec; [|contradiction]. destruct (F2_at _ _ _ Fy n c Ec) as (z & Ez & Sz & Rz). rewrite Ez.
    exists y. split; [exact Ey|]. destruct p as [[m t] kd]. destruct X as (Jx & _ & _ & Xx).
    apply (text_decides y z); auto; [rewrite (sa_exists _ _ Sy); exact Xx|]. rewrite (sa_json _ _ Sy), Jx, (sh_json _ _ Sz). exact N0.
  - destruct (nth_error L n) as [c|] eqn:Ec; [contradiction|].
    assert (Z0 : nth_error ys' n = None). { apply nth_error_None. apply nth_error_None in Ec. rewrite <- (F2_length _ _ _ Fy). exact Ec. }
    rewrite Z0. exists y. split; [exact Ey|]. rewrite (sa_exists _ _ Sy). exact X.
Qed.
Theorem deep_count s u l ys : valid s = Ok true -> taken s u -> v_kind u = KArray -> v_array u = Ok l -> leaves l ys ->
  exists v, v_get u (mDeep ++ [124%N; 35%N]) = Ok v /\ v_kind v = KNumber /\ int_literal (v_json v) (Z.of_nat (length ys)).
Proof.
  intros Hv Ht Hk Hl Ho. destruct (deep_all s u l Hv Ht Hk Hl) as (L & v & ys' & Hu & Ev & Rv & Kv & Jv & Hw & O & Fy).
  rewrite (leaves_one _ _ O _ Ho). destruct (arr_pieces [] (bare_items L) Hw) as (_ & r & Er & Pr). destruct (Pr []) as (ps & P & T). rewrite app_nil_r in P. rewrite vals_bare in T.
  fold (tarr L) in Er. rewrite Er in Jv. destruct (P_Look.look_count [] _ ps (Forall_nil _) P) as (x & Ex & Sx & Ix & _). cbn [app] in *. rewrite <- Jv in Ex.
  destruct (then_mod mDeep u v [35%N] x (stage_whole _ stage_deep) Hu Rv Ev Ex) as (y & Ey & Sy & Ry). exists y. split; [exact Ey|]. rewrite (sa_kind _ _ Sy), (sa_json _ _ Sy). split; [apply (sh_kind _ _ Sx)|].
  rewrite <- (F2_length _ _ _ Fy). apply (f_equal (@List.length _)) in T. rewrite !map_length in T. rewrite <- T. exact Ix.
Qed.

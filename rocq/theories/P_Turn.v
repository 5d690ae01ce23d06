(** Lookups behind @reverse. *)
From Coq Require Import List NArith ZArith Lia.
From Verif Require Import M_Base M_Util M_Value M_Get M_Valid S_Json S_Num S_Get S_Path S_Query S_Api S_Taken S_Same S_Multi S_Compose S_Mod S_Eval S_Panic S_Filter S_Alike S_Tree.
From Verif Require Import P_Base P_Json P_Total P_Closed P_GetMod P_Taken P_Again P_Agree P_Mixed P_Laws P_GetDoc P_GetArr P_Value P_Eval P_Run P_Filter P_Doc P_Tree P_Rel.
From Verif Require P_Drawn P_ModDoc.
Import ListNotations. Open Scope list_scope. Open Scope nat_scope.

Lemma reversed_tarr w es : reversed (CArr w es) = tarr (rev (map i_val es)).
Proof.
  cbn [reversed]. unfold tarr, bare_items. rewrite map_rev, map_map. f_equal. f_equal. apply map_ext. intros []. reflexivity.
Qed.
Lemma whole_rev : whole mRev.
Proof. apply stage_whole, stage_rev. Qed.

(** An array taken from a document, and what follows @reverse. *)
Lemma turn_doc s u : valid s = Ok true -> taken s u -> v_kind u = KArray ->
  returned u /\ exists w es r, v_json u = [] ++ render (CArr w es) ++ r /\ wf (CArr w es) /\ ws r /\ (exists l, v_array u = Ok l /\ length l = length es) /\
    forall B x, get (render (tarr (rev (map i_val es)))) B = Ok x -> exists y, get (v_json u) (mRev ++ 124%N :: B) = Ok y /\ same_answers y x.
Proof.
  intros Hv Ht Hk. split; [apply (taken_returned s u Ht)|].
  destruct (taken_presents s u Hv Ht) as [(X & K & _)|(c & Hc & [P1 P2 (r & Hr & Pj & _) _])]; [congruence|].
  rewrite P2 in Hk. apply kind_arr in Hk as (w & es & ->). cbn [kind_of] in P2. exists w, es, r. split; [exact Pj|]. split; [exact Hc|]. split; [exact Hr|].
  split. { destruct (array_elements u w es r Hc P2 Pj) as (vs & E & F). exists vs. split; [exact E|]. symmetry. exact (F2_length _ _ _ F). }
  intros B x E. destruct (txt_rev [] (CArr w es) r (Forall_nil _) Hc Hr) as (v & Ev & Jv). rewrite reversed_tarr in Jv. cbn [app] in Ev. rewrite <- Pj in Ev.
  pose proof (pipe_outcome (v_json u) mRev B v whole_rev Ev) as O. rewrite Jv, E in O. apply outcome_ok in O. exact O.
Qed.

Lemma nth_rev_map {A} (l : list A) n n' : n + n' + 1 = length l -> nth_error (rev l) n = nth_error l n'.
Proof.
  intros H. destruct l as [|d l]; [cbn in H; lia|]. rewrite (nth_error_nth' (rev (d :: l)) d) by (rewrite rev_length; lia).
  rewrite (nth_error_nth' (d :: l) d) by lia. rewrite rev_nth by lia. f_equal. f_equal. lia.
Qed.

Theorem turn_index s u l k k' n n' : valid s = Ok true -> taken s u -> v_kind u = KArray -> v_array u = Ok l ->
  digits1 k -> digits_val k = Z.of_nat n -> digits1 k' -> digits_val k' = Z.of_nat n' -> n + n' + 1 = length l -> (Z.of_nat (length l) < 2 ^ 63)%Z ->
  same_find (v_get u (mRev ++ 124%N :: k)) (v_get u k').
Proof.
  intros Hv Ht Hk Hl Hd Hn Hd' Hn' Hs Hb. destruct (turn_doc s u Hv Ht Hk) as (Hu & w & es & r & J & Hw & Hr & (l' & El & Ll) & T).
  rewrite Hl in El. injection El as <-. apply same_find_get; [exact Hu|].
  destruct (nth_error es n') as [e|] eqn:Ee; [|apply nth_error_None in Ee; lia].
  destruct (proj1 (get_index [] w es r k' n' (Forall_nil _) Hw Hd' Hn') e Ee) as (y & Ey & Sy); [lia|]. rewrite <- J in Ey.
  assert (Hcw : Forall wf (rev (map i_val es))) by (apply Forall_rev, (wf_vals _ _ Hw)).
  assert (Er : nth_error (bare_items (rev (map i_val es))) n = Some (Item [] (i_val e) [])).
  { unfold bare_items. rewrite nth_error_map, (nth_rev_map _ n n') by (rewrite map_length; lia). rewrite nth_error_map, Ee. reflexivity. }
  destruct (proj1 (get_index [] [] (bare_items (rev (map i_val es))) [] k n (Forall_nil _) (wf_tarr _ Hcw) Hd Hn) _ Er) as (x & Ex & Sx); [lia|].
  cbn [app] in Ex. rewrite app_nil_r in Ex. destruct (T k x Ex) as (z & Ez & Sz).
  eapply (find_text _ _ z y); eauto using returned; [rewrite (sa_exists _ _ Sz); apply Sx|]. rewrite (sa_json _ _ Sz), (sh_json _ _ Sx), (sh_json _ _ Sy). reflexivity.
Qed.

Theorem turn_count s u : valid s = Ok true -> taken s u -> v_kind u = KArray -> same_find (v_get u (mRev ++ [124%N; 35%N])) (v_get u [35%N]).
Proof.
  intros Hv Ht Hk. destruct (turn_doc s u Hv Ht Hk) as (Hu & w & es & r & J & Hw & Hr & _ & T). apply same_find_get; [exact Hu|].
  assert (Hcw : Forall wf (rev (map i_val es))) by (apply Forall_rev, (wf_vals _ _ Hw)).
  assert (M : meaning match0 index0 holds0 [Hash]). { constructor; [intros k n [H|[]]; discriminate H|intros k n [H|[]]; discriminate H|intros q a e [H|[]]; discriminate H]. }
  assert (O : steps_ok [Hash]). { split; [repeat constructor|]. cbn. split; [discriminate|exact I]. }
  pose proof (get_result _ _ _ _ (CArr w es) [] r M O ltac:(discriminate) (Forall_nil _) Hw) as (y & Ey & Sy).
  pose proof (get_result _ _ _ _ (tarr (rev (map i_val es))) [] [] M O ltac:(discriminate) (Forall_nil _) (wf_tarr _ Hcw)) as (x & Ex & Sx).
  change (dotted (map step_text [Hash])) with [35%N] in *. rewrite <- J in Ey. cbn [app] in Ex. rewrite app_nil_r in Ex. destruct (T _ x Ex) as (z & Ez & Sz).
  eapply (find_text _ _ z y); eauto using returned; [rewrite (sa_exists _ _ Sz); apply Sx|]. rewrite (sa_json _ _ Sz), (sh_json _ _ Sx), (sh_json _ _ Sy).
  cbn [render]. unfold bare_items. rewrite map_length, rev_length, map_length. reflexivity.
Qed.

Lemma collect_rev f l : collect f (rev l) = rev (collect f l).
Proof.
  unfold collect. induction l as [|c l IH]; [reflexivity|]. cbn [rev flat_map]. rewrite flat_map_app, IH, rev_app_distr. cbn [flat_map]. rewrite app_nil_r.
  f_equal. destruct (f c); reflexivity.
Qed.
Lemma tarr_of l : array_of l = tarr l.
Proof. reflexivity. Qed.
(** A path that leads to an array, with @reverse behind. *)
Lemma then_rev j p y L : whole p -> Forall wf L -> get j p = Ok y -> v_json y = render (tarr L) ->
  exists z, get j (p ++ 124%N :: mRev) = Ok z /\ v_exists z = true /\ v_json z = render (tarr (rev L)).
Proof.
  intros Hp HL E J. destruct (txt_rev' (tarr L) (wf_tarr _ HL)) as (v & Ev & Jv). rewrite <- J in Ev. pose proof (pipe_outcome j p mRev y Hp E) as O. rewrite Ev in O.
  apply outcome_ok in O as (z & Ez & Sz). exists z. split; [exact Ez|]. unfold tarr in Jv. rewrite reversed_tarr, vals_bare in Jv.
  assert (Jz : v_json z = render (tarr (rev L))) by (rewrite (sa_json _ _ Sz); exact Jv). split; [|exact Jz]. unfold v_exists. rewrite Jz. rewrite render_tarr. reflexivity.
Qed.

Theorem turn_each mt ix hd ss s u : meaning mt ix hd ss -> steps_ok ss -> ss <> [] -> valid s = Ok true -> taken s u -> v_kind u = KArray ->
  same_find (v_get u (mRev ++ 124%N :: 35%N :: 46%N :: dotted (map step_text ss))) (v_get u (35%N :: 46%N :: dotted (map step_text ss) ++ 124%N :: mRev)).
Proof.
  intros Hm Hok Hne Hv Ht Hk. destruct (turn_doc s u Hv Ht Hk) as (Hu & w & es & r & J & Hw & Hr & _ & T). apply same_find_get; [exact Hu|].
  assert (Hcw0 := wf_vals _ _ Hw). assert (Hcw : Forall wf (rev (map i_val es))) by (apply Forall_rev, Hcw0).
  assert (M : meaning mt ix hd (Hash :: ss)).
  { destruct Hm as [H1 H2 H3]. constructor; [intros k n [H|H]; [discriminate H|auto]|intros k n [H|H]; [discriminate H|auto]|intros q a e [H|H]; [discriminate H|eauto]]. }
  assert (O : steps_ok (Hash :: ss)). { split; [constructor; [exact I|apply Hok]|]. cbn. split; [discriminate|apply Hok]. }
  assert (D : dotted (map step_text (Hash :: ss)) = 35%N :: 46%N :: dotted (map step_text ss)) by (destruct ss; [congruence|reflexivity]).
  assert (R : forall w es, result mt ix hd (Hash :: ss) (CArr w es) = Some (tarr (collect (result mt ix hd ss) (map i_val es)))).
  { intros w' es'. unfold result at 1. cbn [eval]. destruct ss; [congruence|]. reflexivity. }
  pose proof (get_result _ _ _ _ (CArr w es) [] r M O ltac:(discriminate) (Forall_nil _) Hw) as Y. rewrite R, D in Y. destruct Y as (y & Ey & Sy).
  pose proof (get_result _ _ _ _ (tarr (rev (map i_val es))) [] [] M O ltac:(discriminate) (Forall_nil _) (wf_tarr _ Hcw)) as X. unfold tarr at 2 in X. rewrite R, vals_bare, D in X. destruct X as (x & Ex & Sx).
  rewrite <- J in Ey. cbn [app] in Ex. rewrite app_nil_r in Ex. destruct (T _ x Ex) as (z & Ez & Sz).
  assert (Wx : whole (35%N :: 46%N :: dotted (map step_text ss))).
  { rewrite <- D. apply wh_pieces; [discriminate|]. apply Forall_map. eapply Forall_impl; [|exact (proj1 O)]. intros t H. left. apply step_any, H. }
  assert (HL : Forall wf (collect (result mt ix hd ss) (map i_val es))).
  { apply Forall_forall. intros d Hd. unfold collect in Hd. apply in_flat_map in Hd as (c & Hc & Hd). destruct (result mt ix hd ss c) eqn:E; [|contradiction].
    destruct Hd as [<-|[]]. eapply result_wf; [|exact E]. exact (proj1 (Forall_forall _ _) Hcw0 c Hc). }
  destruct (then_rev _ _ y _ Wx HL Ey (sh_json _ _ Sy)) as (a & Ea & Xa & Ja).
  eapply (find_text _ _ z a); [exact Ez|exact Ea|eapply ret_get, Ez|eapply ret_get, Ea|rewrite (sa_exists _ _ Sz); apply Sx|]. rewrite (sa_json _ _ Sz), (sh_json _ _ Sx), Ja, collect_rev. reflexivity.
Qed.

Lemma chosen_rev q l : chosen q (rev l) = rev (chosen q l).
Proof.
  unfold chosen. induction l as [|c l IH]; [reflexivity|]. cbn [rev filter]. rewrite filter_app, IH. cbn [filter]. destruct (hits q (render c)); cbn [rev]; [reflexivity|apply app_nil_r].
Qed.
Theorem turn_filter s u q : valid s = Ok true -> taken s u -> v_kind u = KArray -> balanced q -> ~ tilde_after_pretty (qcomp q false) ->
  same_find (v_get u (mRev ++ 124%N :: qcomp q true)) (v_get u (qcomp q true ++ 124%N :: mRev)).
Proof.
  intros Hv Ht Hk Hq Hc. destruct (turn_doc s u Hv Ht Hk) as (Hu & w & es & r & J & Hw & Hr & _ & T). apply same_find_get; [exact Hu|].
  assert (Hcw0 := wf_vals _ _ Hw). assert (Hcw : Forall wf (rev (map i_val es))) by (apply Forall_rev, Hcw0).
  destruct (all_chosen [] w es r q (Forall_nil _) Hw Hq Hc) as (y & Ey & Xy & Jy). destruct (chosen_tarr q _ Hcw Hq Hc) as (x & Ex & Xx & Jx).
  rewrite <- J in Ey. destruct (T _ x Ex) as (z & Ez & Sz).
  assert (Wx : whole (qcomp q true)). { apply (wh_pieces [qcomp q true]); [discriminate|]. constructor; [left; apply any_q, Hq|constructor]. }
  destruct (then_rev _ _ y _ Wx (chosen_wf q _ Hcw0) Ey Jy) as (a & Ea & Xa & Ja).
  eapply (find_text _ _ z a); [exact Ez|exact Ea|eapply ret_get, Ez|eapply ret_get, Ea|rewrite (sa_exists _ _ Sz); exact Xx|]. rewrite (sa_json _ _ Sz), Jx, Ja, chosen_rev. reflexivity.
Qed.

(** The last match. *)
Lemma tame_no_at p : ~ In 64%N p -> tame p.
Proof. intros H. apply no_modifier_tame, H. Qed.
Lemma tame_rev : tame mRev.
Proof. repeat split; intros (a & b & E); do 9 (destruct a as [|? a]; [discriminate E|try discriminate E; injection E as _ E]); destruct a; discriminate E. Qed.
Lemma find_trans x y z : same_find x y -> same_find y z -> same_find x z.
Proof.
  intros (a & b & Ea & Eb & X & S) (b' & c & Eb' & Ec & X' & S'). rewrite Eb in Eb'. injection Eb' as <-. exists a, c. split; [exact Ea|]. split; [exact Ec|].
  split; [congruence|]. intros H. eapply P_Again.same_trans; [apply S, H|apply S'; congruence].
Qed.
Theorem turn_last s u q : valid s = Ok true -> taken s u -> v_kind u = KArray -> balanced q -> ~ tilde_after_pretty (qcomp q false) ->
  same_find (v_get u (mRev ++ 124%N :: qcomp q false)) (v_get u (qcomp q true ++ 124%N :: mRev ++ 124%N :: [48%N])).
Proof.
  intros Hv Ht Hk Hq Hc. pose proof (turn_filter s u q Hv Ht Hk Hq Hc) as F.
  destruct (turn_doc s u Hv Ht Hk) as (Hu & w & es & r & J & Hw & Hr & _ & T).
  destruct (txt_rev [] (CArr w es) r (Forall_nil _) Hw Hr) as (g & Eg & Jg). rewrite <- J in Eg. destruct (vget_like u mRev g Hu Eg) as (v & Ev & Sv).
  assert (Tv : taken s v) by (eapply tk_vget; [exact Ht|exact tame_rev|exact Ev]).
  assert (Kv : v_kind v = KArray).
  { destruct (taken_presents s v Hv Tv) as [(X & _)|(c & Hcw & [P1 P2 (r' & Hr' & Pj & _) _])].
    - exfalso. unfold v_exists in X. rewrite (sa_json _ _ Sv), Jg, reversed_tarr, render_tarr in X. discriminate X.
    - rewrite P2. rewrite (sa_json _ _ Sv), Jg, reversed_tarr, render_tarr in Pj. destruct (render_head c Hcw) as (h & t & E & _).
      rewrite E in Pj. injection Pj as <- _. destruct c as [| | |n|b|w' es'|w' ms']; try discriminate E; try reflexivity.
      exfalso. cbn [render] in E. inversion Hcw as [| | |? Hn| | |]; subst. destruct (P_Drawn.number_num_bytes _ Hn) as (c & b & Ec & Hd & _). injection Ec as <- _. lia. }
  pose proof (law_first_of s v q Hv Tv Kv Hq Hc) as L.
  assert (V : forall B, v_get u (mRev ++ 124%N :: B) = v_get v B). { intros B. rewrite (v_get_whole mRev whole_rev u B), Ev. reflexivity. }
  rewrite V in *. eapply find_trans; [exact L|]. 
  assert (Wq : whole (qcomp q true)). { apply (wh_pieces [qcomp q true]); [discriminate|]. constructor; [left; apply any_q, Hq|constructor]. }
  rewrite (v_get_whole _ Wq v [48%N]). replace (qcomp q true ++ 124%N :: mRev ++ 124%N :: [48%N]) with ((qcomp q true ++ 124%N :: mRev) ++ 124%N :: [48%N]) by (rewrite <- app_assoc; reflexivity).
  assert (Wr : whole (qcomp q true ++ 124%N :: mRev)). { apply (wh_pipe [qcomp q true] mRev); [discriminate| |exact whole_rev]. constructor; [left; apply any_q, Hq|constructor]. }
  rewrite (v_get_whole _ Wr u [48%N]). destruct F as (a & b & Ea & Eb & X & S). rewrite Ea, Eb. cbn [bind].
  assert (Ra : returned a) by (eapply ret_vget; [apply (taken_returned s v Tv)|exact Ea]). assert (Rb : returned b) by (eapply ret_vget; [exact Hu|exact Eb]).
  assert (Jab : v_json a = v_json b). { destruct (v_exists a) eqn:Xa; [apply S; reflexivity|]. unfold v_exists in X, Xa. destruct (v_json a); [|discriminate]. destruct (v_json b); [reflexivity|discriminate]. }
  pose proof (same_vget a b [48%N] Ra Rb Jab) as O.
  assert (G : exists x, v_get a [48%N] = Ok x).
  { destruct (get_total (v_json a) [48%N]) as (x & Ex). { apply safe_calm, safe_no_escape. intros [H|[]]; discriminate H. } destruct (vget_like a _ x Ra Ex) as (x' & Ex' & _). eauto. }
  destruct G as (x & Ex). rewrite Ex in *. destruct (v_get b [48%N]) as [y|]; [|contradiction]. exists x, y. split; [reflexivity|]. split; [reflexivity|]. split; [apply O|intros _; exact O].
Qed.

(** Objects: the last member of a name. *)
Lemma reversed_members w ms : reversed (CObj w ms) = CObj [] (map bare_memb (rev ms)).
Proof. cbn [reversed]. rewrite map_rev. reflexivity. Qed.
Theorem turn_member s u l a k x b n : valid s = Ok true -> taken s u -> v_kind u = KObject -> v_each u record_args [] = Ok (rev l) ->
  l = a ++ (k, x) :: b -> v_str k = Ok n -> ~ In 63%N n -> (forall k' x', In (k', x') b -> v_str k' <> Ok n) ->
  exists y, v_get u (mRev ++ 124%N :: path_escape n) = Ok y /\ same_answers y x.
Proof.
  intros Hv Ht Hk Ha El Hs Hq Hlast. assert (Hu := taken_returned s u Ht).
  destruct (taken_presents s u Hv Ht) as [(X & K & _)|(c & Hc & [P1 P2 (r & Hr & Pj & _) _])]; [congruence|].
  rewrite P2 in Hk. apply kind_obj in Hk as (w & ms & ->). cbn [kind_of] in P2.
  destruct (each_object u w ms r Hc P2 Pj) as (kvs & F & E).
  assert (kvs = l). { pose proof (E _ record_args []) as E0. rewrite Ha, visit_record, app_nil_r in E0. injection E0 as E0. apply (f_equal (@rev _)) in E0. rewrite !rev_involutive in E0. auto. }
  subst kvs. rewrite El in F. destruct (F2_split_r _ _ _ _ _ F) as (a' & m & b' & Em & Fa & Fm & Fb).
  destruct (txt_rev [] (CObj w ms) r (Forall_nil _) Hc Hr) as (g & Eg & Jg). cbn [app] in Eg. rewrite <- Pj in Eg. destruct (vget_like u mRev g Hu Eg) as (v & Ev & Sv).
  rewrite reversed_members, Em in Jg. rewrite (v_get_whole mRev whole_rev u _), Ev. cbn [bind].
  assert (Hwr : wf (CObj [] (map bare_memb (rev (a' ++ m :: b'))))) by (rewrite <- (reversed_members w), <- Em; apply P_ModDoc.wf_reversed, Hc).
  assert (Rv : returned v) by (eapply ret_vget; [exact Hu|exact Ev]).
  rewrite rev_app_distr in Jg, Hwr. cbn [rev] in Jg, Hwr. rewrite <- app_assoc in Jg, Hwr. cbn [app] in Jg, Hwr. rewrite map_app in Jg, Hwr. cbn [map] in Jg, Hwr.
  destruct (proj1 (get_escaped [] [] _ [] n (Forall_nil _) Hwr Hq) (map bare_memb (rev b')) (bare_memb m) (map bare_memb (rev a')) n eq_refl) as (y & Ey & Sy).
  - destruct m. cbn [bare_memb]. unfold named. cbn [m_key]. destruct Fm as [[_ _ _ S4] _]. cbn [fst m_key text_of] in S4. rewrite <- S4. exact Hs.
  - reflexivity.
  - apply Forall_map. apply Forall_rev. clear - Fb Hlast. induction Fb as [|m' [k' x'] b' b [Sk Sx] Fb IH]; constructor.
    + intros n' Hn' <-. apply (Hlast k' x' (or_introl eq_refl)). cbn [fst] in Sk. rewrite (sh_str _ _ Sk). destruct m'. exact Hn'.
    + apply IH. intros k0 x0 Hi. apply (Hlast k0 x0). right. exact Hi.
  - cbn [app] in Ey. rewrite app_nil_r, <- Jg, <- (sa_json _ _ Sv) in Ey. destruct (vget_like v _ y Rv Ey) as (z & Ez & Sz). exists z. split; [exact Ez|].
    eapply P_Again.same_trans; [exact Sz|]. apply (shows_same y x (m_val m)); [eapply ret_get; eauto| |destruct m; exact Sy|exact (proj2 Fm)].
    eapply ret_value; [exact Hu|exact Ha|]. rewrite El. apply -> in_rev. apply in_or_app. right. left. reflexivity.
Qed.

(* ---------- @ugly in front and behind ---------- *)

Definition tight_c (c : cst) : Prop := exists t, c = embed t.
Lemma tight_items w es : tight_c (CArr w es) -> Forall (fun e => tight_c (i_val e)) es.
Proof.
  intros ([| | |n|b|l|l] & E); try discriminate E. cbn [embed] in E. injection E as _ ->. apply Forall_map. apply Forall_forall. intros t _. exists t. reflexivity.
Qed.
Lemma tight_membs w ms : tight_c (CObj w ms) -> Forall (fun m => tight_c (m_val m)) ms.
Proof.
  intros ([| | |n|b|l|l] & E); try discriminate E. cbn [embed] in E. injection E as _ ->. apply Forall_map. apply Forall_forall. intros [k t] _. exists t. reflexivity.
Qed.
Lemma tight_array l : Forall tight_c l -> tight_c (array_of l).
Proof.
  intros H. assert (T : exists ts, l = map embed ts). { induction H as [|c l (t & ->) H (ts & ->)]; [exists []; reflexivity|exists (t :: ts); reflexivity]. }
  destruct T as (ts & ->). exists (TArr ts). cbn [embed]. unfold array_of. rewrite map_map. reflexivity.
Qed.
Lemma tight_collect f l : (forall c d, tight_c c -> f c = Some d -> tight_c d) -> Forall tight_c l -> Forall tight_c (collect f l).
Proof.
  intros Hf. induction 1 as [|c l Hc Hl IH]; [constructor|]. unfold collect. cbn [flat_map]. apply Forall_app. split; [|exact IH].
  destruct (f c) eqn:E; [|constructor]. constructor; eauto.
Qed.
Lemma scan_tight hit fin below : (forall c d, tight_c c -> below c = Some (Some d) -> tight_c d) ->
  forall c d, tight_c c -> scan hit fin below c = Found (Some d) -> tight_c d.
Proof.
  intros Hb c. unfold scan. induction c as [| | |n|b|w es IH|w ms IH] using cst_ind'; intros d Hc E; try discriminate.
  - rewrite scan_arr in E. apply tight_items in Hc. induction es as [|e es IHes]; [discriminate|]. cbn [selems] in E.
    inversion IH as [|? ? I1 I2]; inversion Hc as [|? ? W1 W2]; subst. destruct e as [wb v wa]. cbn [i_val] in *.
    destruct (scan_with hit fin below Some None v) as [r| |] eqn:Ev; try discriminate.
    + injection E as ->. eauto.
    + auto.
  - rewrite scan_obj in E. apply tight_membs in Hc. induction ms as [|m ms IHms]; [discriminate|]. cbn [smembers] in E.
    inversion IH as [|? ? I1 I2]; inversion Hc as [|? ? W1 W2]; subst. destruct m as [wa k wb wc v wd]. cbn [m_val] in *.
    destruct (hit _); [|auto]. destruct fin; [congruence|].
    assert (E' : is_container v = true -> match below v with Some r => Found r | None =>
       match scan_with hit false below Some None v with Go => smembers hit false below Some None ms | e => e end end = Found (Some d))
      by (intros Hv; destruct v; try discriminate; exact E).
    destruct (is_container v) eqn:Ec; [|destruct v; discriminate]. specialize (E' eq_refl).
    destruct (below v) as [r|] eqn:Eb; [injection E' as ->; eauto|].
    destruct (scan_with hit false below Some None v) as [r| |] eqn:Ev; try discriminate; [injection E' as ->; eauto | auto].
Qed.
Lemma eval_tight mt ix hd ss : forall c d, tight_c c -> eval mt ix hd ss c = Some (Some d) -> tight_c d.
Proof.
  induction ss as [|s rest IH]; intros c d Hc E; cbn [eval] in E; [congruence|].
  assert (IHf : forall c d, tight_c c -> flat (eval mt ix hd rest c) = Some d -> tight_c d) by (intros ? ? ? X; apply flat_some in X; eauto).
  destruct c as [| | |n|b|w es|w ms]; try discriminate.
  - apply tight_items in Hc. assert (Hes : Forall tight_c (map i_val es)) by (apply Forall_map; exact Hc).
    destruct s as [k| |q all].
    + destruct (ix k) as [n|]; [|discriminate]. destruct (nth_error es n) as [e|] eqn:En; [|discriminate].
      apply nth_error_In in En. apply (IHf (i_val e)); [exact (proj1 (Forall_forall _ _) Hc e En)|congruence].
    + destruct rest.
      * assert (d = CNum (decimal (length es))) as -> by congruence. exists (TNum (decimal (length es))). reflexivity.
      * match type of E with Some (Some ?x) = _ => assert (d = x) as -> by congruence end. apply tight_array, tight_collect; auto.
    + destruct all.
      * match type of E with Some (Some ?x) = _ => assert (d = x) as -> by congruence end. apply tight_array, tight_collect; auto.
        apply Forall_forall. intros x Hx. apply filter_In in Hx. exact (proj1 (Forall_forall _ _) Hes x (proj1 Hx)).
      * destruct (find (hd q) (map i_val es)) as [e|] eqn:Ef; [|discriminate]. apply find_some in Ef.
        apply (IHf e); [exact (proj1 (Forall_forall _ _) Hes e (proj1 Ef)) | congruence].
  - destruct (scan _ _ _ _) as [r| |] eqn:Es; try discriminate. injection E as ->. eapply scan_tight; [exact IH | exact Hc | exact Es].
Qed.

Lemma ugly_once s t t' : reads s t -> reads s t' -> minimal t = minimal t'.
Proof. intros H H'. destruct (txt_ugly s t H) as (v & E & <-). destruct (txt_ugly s t' H') as (v' & E' & <-). congruence. Qed.

Theorem ugly_through mt ix hd ss s u : meaning mt ix hd ss -> steps_ok ss -> ss <> [] -> tame (dotted (map step_text ss)) ->
  valid s = Ok true -> taken s u -> v_exists u = true ->
  same_find (v_get u (mUgly ++ 124%N :: dotted (map step_text ss))) (v_get u (dotted (map step_text ss) ++ 124%N :: mUgly)).
Proof.
  intros Hm Hok Hne Htm Hv Ht Hx. assert (Hu := taken_returned s u Ht). apply same_find_get; [exact Hu|].
  destruct (taken_presents s u Hv Ht) as [(X & _)|(c & Hc & [P1 P2 (r & Hr & Pj & _) _])]; [congruence|]. set (x := dotted (map step_text ss)) in *.
  assert (R : reads (v_json u) (erase c)). { exists [], c, r. repeat split; auto. constructor. }
  assert (Hwe : wf (embed (erase c))). { apply wf_embed, wf_erase, Hc. }
  assert (R' : reads (minimal (erase c)) (erase c)) by (apply reads_minimal, wf_erase, Hc).
  destruct (get_same _ _ _ x R R' Htm) as (v & v' & Ev & Ev' & S).
  assert (Wx : whole x). { apply wh_pieces; [destruct ss; [congruence|discriminate]|]. apply Forall_map. eapply Forall_impl; [|exact (proj1 Hok)]. intros t H. left. apply step_any, H. }
  assert (Wg : whole mUgly) by (apply stage_whole, stage_simple; reflexivity).
  destruct (txt_ugly _ _ R) as (g & Eg & Jg). pose proof (pipe_outcome _ mUgly x g Wg Eg) as O. rewrite Jg, Ev' in O. apply outcome_ok in O as (y & Ey & Sy).
  destruct (v_exists v) eqn:Xv.
  - destruct (sm_tokens _ _ S Xv) as (t & T & T'). destruct (txt_ugly _ _ T) as (h & Eh & Jh). pose proof (pipe_outcome _ x mUgly v Wx Ev) as O'. rewrite Eh in O'.
    apply outcome_ok in O' as (z & Ez & Sz).
    assert (J' : v_json v' = minimal t).
    { pose proof (get_result mt ix hd ss (embed (erase c)) [] [] Hm Hok Hne (Forall_nil _) Hwe) as A. cbn [app] in A. rewrite app_nil_r, render_embed in A. fold x in A.
      destruct (result mt ix hd ss (embed (erase c))) as [d|] eqn:Ed.
      - destruct A as (v0 & E0 & S0). rewrite Ev' in E0. injection E0 as <-. apply flat_some in Ed.
        destruct (eval_tight _ _ _ _ _ _ (ex_intro _ _ eq_refl) Ed) as (t' & ->). rewrite (sh_json _ _ S0), render_embed.
        apply (ugly_once (v_json v')); [|exact T']. exists [], (embed t'), []. repeat split; [constructor| |constructor|rewrite (sh_json _ _ S0), app_nil_r; reflexivity|apply erase_embed].
        eapply eval_wf; [exact Hwe|exact Ed].
      - exfalso. destruct A as (v0 & E0 & X0). rewrite Ev' in E0. injection E0 as <-. rewrite <- (sm_exists _ _ S) in X0. congruence. }
    eapply (find_text _ _ y z); [exact Ey|exact Ez|eapply ret_get, Ey|eapply ret_get, Ez|rewrite (sa_exists _ _ Sy), <- (sm_exists _ _ S); exact Xv|].
    rewrite (sa_json _ _ Sy), (sa_json _ _ Sz), J', Jh. reflexivity.
  - destruct (sm_absent _ _ S Xv) as (J0 & J0'). pose proof (pipe_outcome _ x mUgly v Wx Ev) as O'. rewrite J0 in O'.
    assert (E0 : exists h, get [] mUgly = Ok h /\ v_exists h = false) by (eexists; split; vm_compute; reflexivity).
    destruct E0 as (h & Eh & Xh). rewrite Eh in O'. apply outcome_ok in O' as (z & Ez & Sz).
    eapply (find_none _ _ y z); [exact Ey|exact Ez|rewrite (sa_exists _ _ Sy), <- (sm_exists _ _ S); exact Xv|rewrite (sa_exists _ _ Sz); exact Xh].
Qed.

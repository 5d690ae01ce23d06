(** Lookups behind @flatten and @join. *)
From Coq Require Import String List NArith ZArith Lia.
From Verif Require Import M_Base M_Util M_Value M_Get M_Valid S_Json S_Num S_Get S_Path S_Query S_Api S_Taken S_Same S_Multi S_Compose S_Mod S_ModText S_Eval S_Panic S_Filter S_Alike S_Tree S_Follow S_Rough S_Look S_Join.
From Verif Require Import P_Base P_Json P_Total P_Closed P_GetMod P_Taken P_Again P_Agree P_Mixed P_Laws P_GetDoc P_GetArr P_Value P_Eval P_Run P_Filter P_Doc P_Tree P_Rel P_Turn.
From Verif Require P_ModText P_ModFlat P_ModJoin P_ModAny P_Look P_Rough P_Select P_ValidSpec P_Each.
From Verif Require Import S_Merge.
Import ListNotations. Open Scope list_scope. Open Scope nat_scope.

(* ---------- the pieces of what @flatten puts together ---------- *)

Lemma token_render c r : wf c -> P_ValidSpec.follow r -> token (render c) (kind_of c) r.
Proof.
  intros Hc Hr. pose proof (lflat_render c r Hc Hr) as E. eapply P_ModAny.token_by; [exact E| |exact (kind_ginfo c Hc)].
  intros Z. destruct (render_head c Hc) as (h & t & Eh & _). rewrite Z in Eh. discriminate Eh.
Qed.
(** The text [s] contributes the pieces [cs], whatever follows. *)
Definition yields (s : bytes) (cs : list cst) : Prop := forall n r ps0, P_ValidSpec.follow r -> pieces (n + length s) r ps0 ->
  exists ps, pieces n (s ++ r) (ps ++ ps0) /\ map piece_text ps = map render cs /\ map snd ps = map kind_of cs.
Lemma yields_app a b la lb : yields a la -> yields b lb -> (forall r, P_ValidSpec.follow r -> P_ValidSpec.follow (b ++ r)) -> yields (a ++ b) (la ++ lb).
Proof.
  intros Ha Hb Hf n r ps0 Hr H. rewrite app_length in H. destruct (Hb (n + length a) r ps0 Hr) as (pb & Pb & Tb & Kb). { rewrite <- Nat.add_assoc. exact H. }
  destruct (Ha n (b ++ r) _ (Hf r Hr) Pb) as (pa & Pa & Ta & Ka). exists (pa ++ pb). rewrite <- !app_assoc. split; [exact Pa|].
  split; (etransitivity; [apply map_app|]; rewrite map_app; f_equal; assumption).
Qed.
Lemma fill_pieces w : Forall filler w -> forall n r ps, pieces (n + length w) r ps -> pieces n (w ++ r) ps.
Proof.
  induction 1 as [|c w Hc Hw IH]; intros n r ps H.
  - cbn [length app] in *. rewrite Nat.add_0_r in H. exact H.
  - cbn [app]. apply pc_filler; [exact Hc|]. apply IH. cbn [length] in H. rewrite Nat.add_succ_r in H. exact H.
Qed.
Lemma yields_pre w b l : Forall filler w -> yields b l -> yields (w ++ b) l.
Proof.
  intros Hw Hb n r ps0 Hr H. rewrite app_length, Nat.add_assoc in H. destruct (Hb _ r ps0 Hr H) as (ps & P & TK). exists ps. split; [|exact TK].
  rewrite <- app_assoc. apply fill_pieces; assumption.
Qed.
Lemma yields_nil : yields [] [].
Proof. intros n r ps0 Hr H. exists []. cbn [length app] in *. rewrite Nat.add_0_r in H. auto. Qed.
Lemma ws_filler w : ws w -> Forall filler w.
Proof. intros H. eapply Forall_impl; [|exact H]. intros c Hc. left. unfold ws_byte in Hc. lia. Qed.
Lemma yields_render c : wf c -> yields (render c) [c].
Proof.
  intros Hc n r ps0 Hr H. exists [(n, render c, kind_of c)]. split; [|split; reflexivity]. cbn [app]. apply pc_token; [apply token_render; assumption|exact H].
Qed.
Lemma yields_ws w : ws w -> yields w [].
Proof. intros H. rewrite <- (app_nil_r w). apply yields_pre; [apply ws_filler, H|apply yields_nil]. Qed.
Lemma yields_item e : wf_item e -> yields (render_item render e) [i_val e].
Proof.
  intros [wb v wa Hb Hv Ha]. cbn [render_item i_val]. apply yields_pre; [apply ws_filler, Hb|]. apply (yields_app _ _ [v] []); [apply yields_render, Hv|apply yields_ws, Ha|].
  intros r. apply follow_ws, Ha.
Qed.
Lemma yields_commas ts : forall css, Forall2 yields ts css -> yields (commas ts) (concat css).
Proof.
  induction ts as [|t ts IH]; intros css F; inversion F as [|? cs ? css' Ht Hts]; subst; [apply yields_nil|]. cbn [concat].
  destruct ts as [|t' ts]; [inversion Hts; subst; cbn [commas concat]; rewrite app_nil_r; exact Ht|]. rewrite commas_cons by discriminate.
  apply yields_app; [exact Ht| |].
  - apply (yields_pre [44%N]); [constructor; [right; left; reflexivity|constructor]|]. apply IH, Hts.
  - intros r _. cbn. right. left. reflexivity.
Qed.
Lemma yields_items es : Forall wf_item es -> yields (commas (map (render_item render) es)) (map i_val es).
Proof.
  intros H. replace (map i_val es) with (concat (map (fun e => [i_val e]) es)). { apply yields_commas. induction H; constructor; [apply yields_item; assumption|assumption]. }
  clear H. induction es as [|e es IH]; [reflexivity|]. cbn [map concat]. rewrite IH. reflexivity.
Qed.

Definition children (c : cst) : list cst := match c with CArr _ es => map i_val es | _ => [c] end.
Lemma yields_ftext c : wf c -> yields (P_ModText.ftext c) (children c).
Proof.
  intros Hc. destruct c as [| | |n|b|w es|w ms]; try (apply yields_render, Hc). cbn [P_ModText.ftext inside children].
  inversion Hc as [| | | | |? ? Hw He|]; subst. apply yields_pre; [apply ws_filler, Hw|apply yields_items, He].
Qed.
Lemma flat_once_children l : flat_once l = concat (map children l).
Proof. unfold flat_once. rewrite flat_map_concat_map. reflexivity. Qed.
Lemma yields_flat w es : wf (CArr w es) -> yields (commas (flat_texts es)) (flat_once (map i_val es)).
Proof.
  intros Hw. assert (H := wf_vals _ _ Hw). clear Hw w. rewrite P_ModText.flat_texts_eq, flat_once_children.
  assert (X : exists css, Forall2 yields (filter nonempty (map (fun e => P_ModText.ftext (i_val e)) es)) css /\ concat css = concat (map children (map i_val es))).
  { induction es as [|e es IH]; [exists []; split; [constructor|reflexivity]|]. cbn [map] in H. inversion H as [|? ? He Hes]; subst. destruct (IH Hes) as (css & F & E).
    cbn [map filter concat]. destruct (nonempty (P_ModText.ftext (i_val e))) eqn:N0.
    - exists (children (i_val e) :: css). split; [constructor; [apply yields_ftext, He|exact F]|]. cbn [concat]. rewrite E. reflexivity.
    - apply P_ModText.ftext_empty in N0; [|exact He]. rewrite N0. cbn [children map app]. exists css. auto. }
  destruct X as (css & F & <-). apply yields_commas, F.
Qed.
(** The body of the array that @flatten makes. *)
Lemma flat_pieces w es : wf (CArr w es) -> exists ps : list piece, pieces 1 (commas (flat_texts es) ++ [93%N]) ps /\
  map piece_text ps = map render (flat_once (map i_val es)) /\ map snd ps = map kind_of (flat_once (map i_val es)).
Proof.
  intros Hw. destruct (yields_flat w es Hw 1 [93%N] []) as (ps & P & T & K). { right. right. left. reflexivity. } { apply pc_close. right. reflexivity. }
  rewrite app_nil_r in P. eauto.
Qed.
Lemma flat_wf w es : wf (CArr w es) -> Forall wf (flat_once (map i_val es)).
Proof.
  intros Hw. assert (H := wf_vals _ _ Hw). clear Hw. induction H as [|c l Hc H IH]; [constructor|]. cbn [flat_once flat_map]. apply Forall_app. split; [|exact IH].
  destruct c; try (constructor; [exact Hc|constructor]). apply (wf_vals _ _ Hc).
Qed.

(* ---------- @flatten ---------- *)

Definition mFlat : bytes := bs "@flatten".
Lemma whole_flat : whole mFlat.
Proof. apply stage_whole, stage_simple. reflexivity. Qed.
Lemma flat_doc s u : valid s = Ok true -> taken s u -> v_kind u = KArray ->
  returned u /\ exists w es r l v, v_json u = [] ++ render (CArr w es) ++ r /\ wf (CArr w es) /\ ws r /\ v_array u = Ok l /\ Forall2 (fun e x => shows x (i_val e)) es l /\
    v_get u mFlat = Ok v /\ returned v /\ v_kind v = KArray /\ v_json v = 91%N :: commas (flat_texts es) ++ [93%N].
Proof.
  intros Hv Ht Hk. assert (Hu := taken_returned s u Ht). split; [exact Hu|].
  destruct (taken_presents s u Hv Ht) as [(X & K & _)|(c & Hc & [P1 P2 (r & Hr & Pj & _) _])]; [congruence|].
  rewrite P2 in Hk. apply kind_arr in Hk as (w & es & ->). cbn [kind_of] in P2.
  destruct (array_elements u w es r Hc P2 Pj) as (l & El & Fl). destruct (P_ModText.get_flatten_text [] w es r None) with (dv := value_default) as (g & Eg & Kg & Jg); auto.
  { constructor. } { exact I. }
  cbn [app] in Eg. rewrite <- Pj in Eg. change (modifier n_flatten None) with mFlat in Eg. destruct (vget_like u mFlat g Hu Eg) as (v & Ev & Sv).
  exists w, es, r, l, v. split; [exact Pj|]. split; [exact Hc|]. split; [exact Hr|]. split; [exact El|]. split; [exact Fl|]. split; [exact Ev|].
  split; [eapply ret_vget; eauto|]. rewrite (sa_kind _ _ Sv), (sa_json _ _ Sv). auto.
Qed.

Lemma opened_shows es l : Forall wf (map i_val es) -> Forall2 (fun e x => shows x (i_val e)) es l -> Forall returned l ->
  exists ys, opened l ys /\ Forall2 (fun c y => shows y c /\ returned y) (flat_once (map i_val es)) ys.
Proof.
  intros Hw F. induction F as [|e x es l Hx F IH]; intros Hr; [exists []; split; constructor|].
  cbn [map] in Hw. inversion Hw as [|? ? Hc Hcs]; subst. inversion Hr as [|? ? Rx Rl]; subst. destruct (IH Hcs Rl) as (ys & O & Fy). cbn [map flat_once flat_map].
  destruct (i_val e) as [| | |n|b|w es'|w ms] eqn:Ev;
    try (exists (x :: ys); split; [apply op_other; [rewrite (sh_kind _ _ Hx); discriminate|exact O]|constructor; [split; assumption|exact Fy]]).
  destruct (array_elements x w es' [] Hc) as (zs & Ez & Fz). { rewrite (sh_kind _ _ Hx). reflexivity. } { rewrite app_nil_r. apply (sh_json _ _ Hx). }
  exists (zs ++ ys). split; [apply op_array; [rewrite (sh_kind _ _ Hx); reflexivity|exact Ez|exact O]|]. apply Forall2_app; [|exact Fy].
  assert (Rz : Forall returned zs) by (apply Forall_forall; intros z Hz; exact (ret_elem x zs z Rx Ez Hz)).
  clear - Fz Rz. induction Fz as [|? ? ? ? ? ? IH]; inversion Rz; subst; constructor; auto.
Qed.
Lemma opened_one l ys : opened l ys -> forall ys', opened l ys' -> ys' = ys.
Proof.
  induction 1 as [|x ys l zs K A O IH|x l zs K O IH]; intros ys' O'; inversion O'; subst; try reflexivity; try contradiction.
  - match goal with E : v_array x = Ok _ |- _ => rewrite A in E; injection E as <- end. f_equal. apply IH. assumption.
  - f_equal. apply IH. assumption.
Qed.
Lemma pieces_show xs (ps : list piece) : Forall2 is_piece xs ps -> forall L, map piece_text ps = map render L ->
  Forall2 (fun x c => v_exists x = true /\ v_json x = render c) xs L.
Proof.
  induction 1 as [|x [[n t] k] xs ps (J & K & I & X) F IH]; intros L E; destruct L as [|c L]; try discriminate E; constructor.
  - cbn in E. injection E as E _. split; [exact X|congruence].
  - apply IH. injection E as _ E. exact E.
Qed.

(** What is needed of an array and its flattened elements. *)
Lemma flat_all s u l : valid s = Ok true -> taken s u -> v_kind u = KArray -> v_array u = Ok l ->
  exists w es r v (ps : list piece) ys, v_json u = [] ++ render (CArr w es) ++ r /\ wf (CArr w es) /\ ws r /\ Forall2 (fun e x => shows x (i_val e)) es l /\
    v_get u mFlat = Ok v /\ returned u /\ returned v /\ v_kind v = KArray /\ v_json v = [] ++ 91%N :: commas (flat_texts es) ++ [93%N] /\
    pieces 1 (commas (flat_texts es) ++ [93%N]) ps /\ map piece_text ps = map render (flat_once (map i_val es)) /\
    opened l ys /\ Forall2 (fun c y => shows y c /\ returned y) (flat_once (map i_val es)) ys.
Proof.
  intros Hv Ht Hk Hl. destruct (flat_doc s u Hv Ht Hk) as (Hu & w & es & r & l' & v & J & Hw & Hr & El & Fl & Ev & Rv & Kv & Jv).
  rewrite Hl in El. injection El as <-. destruct (flat_pieces w es Hw) as (ps & P & T & _).
  destruct (opened_shows es l (wf_vals _ _ Hw) Fl) as (ys & O & Fy). { apply Forall_forall. intros x Hx. exact (ret_elem u l x Hu Hl Hx). }
  exists w, es, r, v, ps, ys. auto 20.
Qed.

Theorem flat_elements s u l : valid s = Ok true -> taken s u -> v_kind u = KArray -> v_array u = Ok l ->
  exists v xs ys, v_get u mFlat = Ok v /\ v_array v = Ok xs /\ opened l ys /\ Forall2 same_answers xs ys.
Proof.
  intros Hv Ht Hk Hl. destruct (flat_all s u l Hv Ht Hk Hl) as (w & es & r & v & ps & ys & J & Hw & Hr & Fl & Ev & Hu & Rv & Kv & Jv & P & T & O & Fy).
  destruct (P_Rough.array_pieces v 91%N _ ps Kv Jv P) as (xs & Ex & Fx). exists v, xs, ys. split; [exact Ev|]. split; [exact Ex|]. split; [exact O|].
  pose proof (pieces_show xs ps Fx _ T) as S. assert (R : Forall returned xs) by (apply Forall_forall; intros x Hx; exact (ret_elem v xs x Rv Ex Hx)).
  clear - S R Fy. revert ys Fy. induction S as [|x c xs L [X Jx] S IH]; intros ys Fy; inversion Fy as [|? y ? ys' [Sy Ry] Fy']; subst; [constructor|].
  inversion R; subst. constructor; [|apply IH; assumption]. apply (text_decides x y); auto. rewrite Jx. symmetry. apply (sh_json _ _ Sy).
Qed.

(** Behind @flatten. *)
Lemma then_flat u v B x : returned u -> returned v -> v_get u mFlat = Ok v -> get (v_json v) B = Ok x ->
  exists y, v_get u (mFlat ++ 124%N :: B) = Ok y /\ same_answers y x /\ returned y.
Proof.
  intros Hu Rv Ev Ex. rewrite (v_get_whole mFlat whole_flat u B), Ev. cbn [bind]. destruct (vget_like v B x Rv Ex) as (y & Ey & Sy). exists y.
  split; [exact Ey|]. split; [exact Sy|]. eapply ret_vget; eauto.
Qed.

Lemma F2_at {A B} (P : A -> B -> Prop) l l' : Forall2 P l l' -> forall n x, nth_error l n = Some x -> exists y, nth_error l' n = Some y /\ P x y.
Proof. induction 1 as [|a b l l' H F IH]; intros [|n] x E; try discriminate E; [injection E as <-; exists b; auto|apply IH, E]. Qed.
Lemma nth_text (ps : list piece) L n : map piece_text ps = map render L -> match nth_error ps n, nth_error L n with
  | Some p, Some c => piece_text p = render c | None, None => True | _, _ => False end.
Proof.
  revert L n. induction ps as [|p ps IH]; intros [|c L] n E; try discriminate E.
  - destruct n; exact I.
  - cbn [map] in E. assert (E1 : piece_text p = render c) by congruence. assert (E2 : map piece_text ps = map render L) by congruence. destruct n as [|n]; [exact E1|]. exact (IH L n E2).
Qed.
Theorem flat_index s u l ys k n : valid s = Ok true -> taken s u -> v_kind u = KArray -> v_array u = Ok l -> opened l ys ->
  digits1 k -> digits_val k = Z.of_nat n -> (Z.of_nat n < 2 ^ 63)%Z ->
  match nth_error ys n with
  | Some y => exists v, v_get u (mFlat ++ 124%N :: k) = Ok v /\ same_answers v y
  | None => exists v, v_get u (mFlat ++ 124%N :: k) = Ok v /\ v_exists v = false
  end.
Proof.
  intros Hv Ht Hk Hl Ho Hd Hn Hb. destruct (flat_all s u l Hv Ht Hk Hl) as (w & es & r & v & ps & ys' & J & Hw & Hr & Fl & Ev & Hu & Rv & Kv & Jv & P & T & O & Fy).
  rewrite (opened_one _ _ O _ Ho). clear Ho ys. pose proof (nth_text ps _ n T) as N0. unfold piece in *.
  assert (Hi : index_key k n) by (apply ik_plain; auto).
  assert (Ik : look 0 (91%N :: commas (flat_texts es) ++ [93%N]) [k] (nth_error ps n)).
  { pose proof (in_array 0 _ k n [] ps Hi P) as I0. destruct (nth_error ps n) as [p|].
    - apply (lk_found 0 [] _ [k] p); [constructor|exact I0].
    - apply (lk_nowhere 0 [] _ [k]); [constructor|exact I0]. }
  destruct (P_Look.look_get _ [k] _ ltac:(constructor; [apply digits_component, Hd|constructor]) ltac:(constructor; [apply Hd|constructor]) ltac:(discriminate) Ik) as (x & Ex & X).
  change (dotted [k]) with k in Ex. cbn [app] in Jv. rewrite <- Jv in Ex. destruct (then_flat u v k x Hu Rv Ev Ex) as (y & Ey & Sy & Ry).
  destruct (nth_error ps n) as [p|] eqn:Ep.
  - destruct (nth_error (flat_once (map i_val es)) n) as [c|] eqn:Ec; [|contradiction]. destruct (F2_at _ _ _ Fy n c Ec) as (z & Ez & Sz & Rz). rewrite Ez.
    exists y. split; [exact Ey|]. destruct p as [[m t] kd]. destruct X as (Jx & _ & _ & Xx).
    apply (text_decides y z); auto; [rewrite (sa_exists _ _ Sy); exact Xx|]. rewrite (sa_json _ _ Sy), Jx, (sh_json _ _ Sz). exact N0.
  - destruct (nth_error (flat_once (map i_val es)) n) as [c|] eqn:Ec; [contradiction|].
    assert (Z0 : nth_error ys' n = None). { apply nth_error_None. apply nth_error_None in Ec. rewrite <- (F2_length _ _ _ Fy). exact Ec. }
    rewrite Z0. exists y. split; [exact Ey|]. rewrite (sa_exists _ _ Sy). exact X.
Qed.

Theorem flat_count s u l ys : valid s = Ok true -> taken s u -> v_kind u = KArray -> v_array u = Ok l -> opened l ys ->
  exists v, v_get u (mFlat ++ [124%N; 35%N]) = Ok v /\ v_kind v = KNumber /\ int_literal (v_json v) (Z.of_nat (length ys)).
Proof.
  intros Hv Ht Hk Hl Ho. destruct (flat_all s u l Hv Ht Hk Hl) as (w & es & r & v & ps & ys' & J & Hw & Hr & Fl & Ev & Hu & Rv & Kv & Jv & P & T & O & Fy).
  rewrite (opened_one _ _ O _ Ho). destruct (P_Look.look_count [] _ ps (Forall_nil _) P) as (x & Ex & Sx & Ix & _). cbn [app] in *. rewrite <- Jv in Ex.
  destruct (then_flat u v [35%N] x Hu Rv Ev Ex) as (y & Ey & Sy & Ry). exists y. split; [exact Ey|]. rewrite (sa_kind _ _ Sy), (sa_json _ _ Sy). split; [apply (sh_kind _ _ Sx)|].
  rewrite <- (F2_length _ _ _ Fy). apply (f_equal (@List.length _)) in T. rewrite !map_length in T. rewrite <- T. exact Ix.
Qed.

(* ---------- collecting and filtering behind @flatten ---------- *)

Definition res_of (B t : bytes) : value := match get t B with Ok x => x | Err _ => value_default end.
Lemma res_texts mt ix hd ss L : meaning mt ix hd ss -> steps_ok ss -> ss <> [] -> Forall wf L ->
  (forall c, In c L -> get (render c) (dotted (map step_text ss)) = Ok (res_of (dotted (map step_text ss)) (render c))) /\
  map v_json (filter v_exists (map (res_of (dotted (map step_text ss))) (map render L))) = map render (collect (result mt ix hd ss) L).
Proof.
  intros Hm Hok Hne HL.
  assert (A : forall c, wf c -> get (render c) (dotted (map step_text ss)) = Ok (res_of (dotted (map step_text ss)) (render c)) /\
    map v_json (filter v_exists [res_of (dotted (map step_text ss)) (render c)]) = map render (match result mt ix hd ss c with Some d => [d] | None => [] end)).
  { intros c Hc. pose proof (get_result mt ix hd ss c [] [] Hm Hok Hne (Forall_nil _) Hc) as G. cbn [app] in G. rewrite app_nil_r in G. unfold res_of.
    destruct (result mt ix hd ss c) as [d|]; destruct G as (x & Ex & Sx); rewrite Ex; (split; [reflexivity|]); cbn [filter].
    - rewrite (sh_exists _ _ Sx). cbn [map]. rewrite (sh_json _ _ Sx). reflexivity.
    - rewrite Sx. reflexivity. }
  split.
  - intros c Hc. apply A. exact (proj1 (Forall_forall _ _) HL c Hc).
  - induction HL as [|c L Hc HL IH]; [reflexivity|]. destruct (A c Hc) as [_ A2]. cbn [map]. unfold collect. cbn [flat_map]. rewrite map_app, <- A2. fold (collect (result mt ix hd ss) L).
    rewrite <- IH. cbn [filter]. destruct (v_exists _); reflexivity.
Qed.
(** Pieces of these texts, wherever they stand. *)
Lemma each_pieces r (ps : list piece) L ks : pieces 1 r ps -> map piece_text ps = map render L -> Forall any_comp ks -> ks <> [] ->
  (forall c, In c L -> get (render c) (dotted ks) = Ok (res_of (dotted ks) (render c))) ->
  exists v, get (91%N :: r) (35%N :: 46%N :: dotted ks) = Ok v /\ v_exists v = true /\
    v_json v = 91%N :: commas (map v_json (filter v_exists (map (res_of (dotted ks)) (map render L)))) ++ [93%N].
Proof.
  intros P T Hk Hn HL. destruct (P_Look.look_each [] r ps ks (res_of (dotted ks)) (Forall_nil _) P Hk Hn) as (v & E & X & _ & J).
  - intros p Hp. assert (I0 : In (piece_text p) (map piece_text ps)) by (apply in_map, Hp). rewrite T in I0. apply in_map_iff in I0 as (c & Ec & Hc). rewrite <- Ec. apply HL, Hc.
  - exists v. split; [exact E|]. split; [exact X|]. rewrite J, <- T, map_map. reflexivity.
Qed.
Lemma arr_pieces w es : wf (CArr w es) -> exists (ps : list piece) r, render (CArr w es) = 91%N :: r /\ forall x, exists ps : list piece, pieces 1 (r ++ x) ps /\ map piece_text ps = map render (map i_val es).
Proof.
  intros Hw. inversion Hw as [| | | | |? ? Hw1 He|]; subst. exists [], (w ++ commas (map (render_item render) es) ++ [93%N]). split; [reflexivity|]. intros x.
  destruct (yields_pre w _ _ (ws_filler _ Hw1) (yields_items es He) 1 (93%N :: x) []) as (ps & P & T & _). { right. right. left. reflexivity. } { apply pc_close. right. reflexivity. }
  exists ps. rewrite app_nil_r in P. rewrite <- !app_assoc in *. cbn [app]. split; [exact P|exact T].
Qed.

Lemma all_arrays es l : Forall2 (fun e x => shows x (i_val e)) es l -> Forall (fun x => v_kind x = KArray) l ->
  exists ws0, map i_val es = map (fun p => CArr (fst p) (snd p)) ws0 /\ flat_once (map i_val es) = concat (map (fun p => map i_val (snd p)) ws0).
Proof.
  intros F H. induction F as [|e x es l Hx F IH]; [exists []; split; reflexivity|]. inversion H as [|? ? Kx Kl]; subst. destruct (IH Kl) as (ws0 & E1 & E2).
  rewrite (sh_kind _ _ Hx) in Kx. apply kind_arr in Kx as (w & es' & Ev). exists ((w, es') :: ws0). cbn [map fst snd concat flat_once flat_map]. rewrite Ev, E1. split; [reflexivity|].
  unfold flat_once in E2. rewrite E1 in E2. rewrite E2. reflexivity.
Qed.

(** @flatten of an array of arrays without blanks. *)
Lemma commas_some (T : list bytes) : Forall (fun t => t <> []) T -> T <> [] -> nonempty (commas T) = true.
Proof. intros H Hn. destruct T as [|[|c t] T]; [congruence|inversion H; congruence|]. destruct T; reflexivity. Qed.
Lemma commas_concat (Ts : list (list bytes)) : Forall (Forall (fun t => t <> [])) Ts ->
  commas (filter nonempty (map commas Ts)) = commas (concat Ts) /\ (filter nonempty (map commas Ts) = [] -> concat Ts = []).
Proof.
  induction 1 as [|T Ts HT HTs [IH1 IH2]]; [split; reflexivity|]. cbn [map filter concat]. destruct T as [|t T].
  - cbn [commas nonempty app]. split; assumption.
  - rewrite (commas_some (t :: T) HT) by discriminate. split; [|discriminate].
    destruct (filter nonempty (map commas Ts)) as [|x R] eqn:ER.
    + rewrite (IH2 eq_refl), app_nil_r. reflexivity.
    + rewrite commas_cons by discriminate. rewrite P_ModFlat.commas_app; [rewrite IH1; reflexivity|discriminate|].
      intros Z. rewrite Z in IH1. assert (F : Forall (fun x => nonempty x = true) (x :: R)). { rewrite <- ER. apply Forall_forall. intros y Hy. apply filter_In in Hy. apply Hy. }
      inversion F; subst. destruct x; [discriminate|]. destruct R; discriminate IH1.
Qed.
Lemma flat_tarrs Ls : Forall (Forall wf) Ls -> commas (flat_texts (bare_items (map tarr Ls))) = commas (map render (concat Ls)).
Proof.
  intros H. rewrite P_ModText.flat_texts_eq. unfold bare_items. rewrite !map_map. cbn [i_val].
  rewrite (map_ext (fun L => P_ModText.ftext (tarr L)) (fun L => commas (map render L))).
  2:{ intros L. unfold tarr. cbn [P_ModText.ftext inside app]. rewrite render_bare. reflexivity. }
  rewrite concat_map, <- (map_map (map render) commas). apply commas_concat. apply Forall_map. eapply Forall_impl; [|exact H].
  intros L HL. apply Forall_map. eapply Forall_impl; [|exact HL]. intros c. apply P_ModFlat.render_nonempty.
Qed.
(** A path that leads to such an array, with @flatten behind it. *)
Lemma flat_behind j p y Ls : whole p -> Forall (Forall wf) Ls -> get j p = Ok y -> v_json y = render (tarr (map tarr Ls)) ->
  exists z, get j (p ++ 124%N :: mFlat) = Ok z /\ v_exists z = true /\ v_json z = 91%N :: commas (map render (concat Ls)) ++ [93%N].
Proof.
  intros Hp HL E J. assert (Hw : wf (tarr (map tarr Ls))). { apply wf_tarr, Forall_map. eapply Forall_impl; [|exact HL]. intros L. apply wf_tarr. }
  destruct (P_ModText.get_flatten_text [] [] (bare_items (map tarr Ls)) [] None) with (dv := value_default) as (g & Eg & Kg & Jg); [constructor|exact Hw|constructor|exact I|reflexivity|reflexivity|].
  cbn [app] in Eg. rewrite app_nil_r in Eg. change (modifier n_flatten None) with mFlat in Eg. fold (tarr (map tarr Ls)) in Eg. rewrite <- J in Eg.
  pose proof (pipe_outcome j p mFlat y Hp E) as O. rewrite Eg in O. apply outcome_ok in O as (z & Ez & Sz). exists z. split; [exact Ez|].
  rewrite (flat_tarrs Ls HL) in Jg. assert (Jz : v_json z = 91%N :: commas (map render (concat Ls)) ++ [93%N]) by (rewrite (sa_json _ _ Sz); exact Jg).
  split; [|exact Jz]. unfold v_exists. rewrite Jz. reflexivity.
Qed.


Lemma collect_concat f Ls : collect f (concat Ls) = concat (map (collect f) Ls).
Proof.
  induction Ls as [|L Ls IH]; [reflexivity|]. cbn [concat map]. unfold collect in *. rewrite flat_map_app, IH. reflexivity.
Qed.
Theorem flat_each mt ix hd ss s u l : meaning mt ix hd ss -> steps_ok ss -> ss <> [] -> valid s = Ok true -> taken s u -> v_kind u = KArray ->
  v_array u = Ok l -> Forall (fun x => v_kind x = KArray) l ->
  same_find (v_get u (mFlat ++ 124%N :: 35%N :: 46%N :: dotted (map step_text ss)))
    (v_get u ((35%N :: 46%N :: 35%N :: 46%N :: dotted (map step_text ss)) ++ 124%N :: mFlat)).
Proof.
  intros Hm Hok Hne Hv Ht Hk Hl Ha. destruct (flat_all s u l Hv Ht Hk Hl) as (w & es & r & v & ps & ys & J & Hw & Hr & Fl & Ev & Hu & Rv & Kv & Jv & P & T & _).
  destruct (all_arrays es l Fl Ha) as (ws0 & E1 & E2). assert (HL := flat_wf w es Hw). assert (Hcw0 := wf_vals _ _ Hw).
  destruct (res_texts mt ix hd ss _ Hm Hok Hne HL) as [R1 R2].
  assert (Hks : Forall any_comp (map step_text ss)). { apply Forall_map. eapply Forall_impl; [|exact (proj1 Hok)]. intros t H. apply step_any, H. }
  destruct (each_pieces _ ps _ (map step_text ss) P T Hks) as (x & Ex & Xx & Jx); [destruct ss; [congruence|discriminate]|exact R1|]. rewrite R2 in Jx.
  cbn [app] in Jv. rewrite <- Jv in Ex. destruct (then_flat u v _ x Hu Rv Ev Ex) as (y & Ey & Sy & Ry).
  set (D := dotted (map step_text ss)) in *.
  assert (M : meaning mt ix hd (Hash :: Hash :: ss)).
  { destruct Hm as [H1 H2 H3]. constructor; [intros k n [H|[H|H]]; [discriminate H|discriminate H|auto]|intros k n [H|[H|H]]; [discriminate H|discriminate H|auto]|intros q a e [H|[H|H]]; [discriminate H|discriminate H|eauto]]. }
  assert (O : steps_ok (Hash :: Hash :: ss)). { split; [constructor; [exact I|constructor; [exact I|apply Hok]]|]. cbn. split; [discriminate|split; [discriminate|apply Hok]]. }
  assert (DD : dotted (map step_text (Hash :: Hash :: ss)) = 35%N :: 46%N :: 35%N :: 46%N :: D) by (unfold D; destruct ss; [congruence|reflexivity]).
  assert (R : forall w es, result mt ix hd (Hash :: ss) (CArr w es) = Some (tarr (collect (result mt ix hd ss) (map i_val es)))).
  { intros w' es'. unfold result at 1. cbn [eval]. destruct ss; [congruence|]. reflexivity. }
  pose proof (get_result _ _ _ _ (CArr w es) [] r M O ltac:(discriminate) (Forall_nil _) Hw) as G. rewrite DD in G.
  assert (RR : result mt ix hd (Hash :: Hash :: ss) (CArr w es) = Some (tarr (collect (result mt ix hd (Hash :: ss)) (map i_val es)))) by reflexivity.
  rewrite RR in G. destruct G as (z & Ez & Sz). rewrite <- J in Ez.
  set (Ls := map (fun p : text * list (item cst) => collect (result mt ix hd ss) (map i_val (snd p))) ws0).
  assert (EL : collect (result mt ix hd (Hash :: ss)) (map i_val es) = map tarr Ls).
  { rewrite E1. unfold Ls. clear - R. induction ws0 as [|p ws0 IH]; [reflexivity|]. cbn [map]. unfold collect at 1. cbn [flat_map]. rewrite R. cbn [app]. f_equal. exact IH. }
  assert (HLs : Forall (Forall wf) Ls).
  { unfold Ls. apply Forall_map. rewrite E1 in Hcw0. pose proof (proj1 (Forall_map _ _ _) Hcw0) as Hc0. clear Hcw0. eapply Forall_impl; [|exact Hc0]. intros p Hp. cbn beta in Hp.
    apply wf_collect; [|apply (wf_vals _ _ Hp)]. intros c d Hc. apply result_wf, Hc. }
  assert (Wx : whole (35%N :: 46%N :: 35%N :: 46%N :: D)).
  { rewrite <- DD. apply wh_pieces; [discriminate|]. apply Forall_map. eapply Forall_impl; [|exact (proj1 O)]. intros t H. left. apply step_any, H. }
  pose proof (sh_json _ _ Sz) as Jz. rewrite EL in Jz. destruct (flat_behind _ _ z Ls Wx HLs Ez Jz) as (a & Ea & Xa & Ja).
  destruct (vget_like u _ a Hu Ea) as (b & Eb & Sb).
  eapply (find_text _ _ y b); [exact Ey|exact Eb|exact Ry|eapply ret_vget; [exact Hu|exact Eb]|rewrite (sa_exists _ _ Sy); exact Xx|].
  rewrite (sa_json _ _ Sy), (sa_json _ _ Sb), Jx, Ja, E2, collect_concat. unfold Ls. rewrite map_map. reflexivity.
Qed.

(** Choosing. *)
Lemma chosen_concat q Ls : chosen q (concat Ls) = concat (map (chosen q) Ls).
Proof.
  induction Ls as [|L Ls IH]; [reflexivity|]. cbn [concat map]. unfold chosen in *. rewrite filter_app, IH. reflexivity.
Qed.
Theorem flat_filter q s u l : balanced q -> ~ tilde_after_pretty (qcomp q false) -> valid s = Ok true -> taken s u -> v_kind u = KArray ->
  v_array u = Ok l -> Forall (fun x => v_kind x = KArray) l ->
  same_find (v_get u (mFlat ++ 124%N :: qcomp q true)) (v_get u ((35%N :: 46%N :: qcomp q true) ++ 124%N :: mFlat)).
Proof.
  intros Hq Hc Hv Ht Hk Hl Ha. destruct (flat_all s u l Hv Ht Hk Hl) as (w & es & r & v & ps & ys & J & Hw & Hr & Fl & Ev & Hu & Rv & Kv & Jv & P & T & _).
  destruct (all_arrays es l Fl Ha) as (ws0 & E1 & E2). assert (Hcw0 := wf_vals _ _ Hw).
  destruct (P_Look.look_all [] _ ps q (fun t => hits q t) (Forall_nil _) P Hq) as (x & Ex & Xx & _ & Jx). { intros p _. apply (hits_picks q _ _ Hc). reflexivity. }
  rewrite T, filter_map_comm in Jx. fold (chosen q (flat_once (map i_val es))) in Jx.
  rewrite <- Jv in Ex. destruct (then_flat u v _ x Hu Rv Ev Ex) as (y & Ey & Sy & Ry).
  rewrite E1 in Hcw0. pose proof (proj1 (Forall_map _ _ _) Hcw0) as Hc0. clear Hcw0.
  set (Ls := map (fun p : text * list (item cst) => chosen q (map i_val (snd p))) ws0).
  assert (HLs : Forall (Forall wf) Ls).
  { unfold Ls. apply Forall_map. eapply Forall_impl; [|exact Hc0]. intros p Hp. cbn beta in Hp. apply chosen_wf, (wf_vals _ _ Hp). }
  assert (A : forall p, In p ws0 -> exists z, get (render (CArr (fst p) (snd p))) (qcomp q true) = Ok z /\ v_exists z = true /\ v_json z = render (tarr (chosen q (map i_val (snd p))))).
  { intros p Hp. rewrite Forall_forall in Hc0. destruct (all_chosen [] (fst p) (snd p) [] q (Forall_nil _) (Hc0 p Hp) Hq Hc) as (z & E & X & Z). cbn [app] in E. rewrite app_nil_r in E. eauto. }
  destruct (arr_pieces w es Hw) as (_ & r0 & Er & Pr). destruct (Pr r) as (ps' & P' & T').
  destruct (each_pieces (r0 ++ r) ps' (map i_val es) [qcomp q true] P' T') as (z & Ez & Xz & Jz).
  { constructor; [apply any_q, Hq|constructor]. } { discriminate. }
  { intros c Hi. rewrite E1 in Hi. apply in_map_iff in Hi as (p & <- & Hp). destruct (A p Hp) as (z & E & _). cbn [dotted]. unfold res_of. rewrite E. reflexivity. }
  cbn [dotted] in Ez, Jz.
  assert (ET : map v_json (filter v_exists (map (res_of (qcomp q true)) (map render (map i_val es)))) = map render (map tarr Ls)).
  { rewrite E1. unfold Ls. clear - A. induction ws0 as [|p ws0 IH]; [reflexivity|]. cbn [map filter]. destruct (A p (or_introl eq_refl)) as (z & E & X & Z).
    unfold res_of at 1. rewrite E, X. cbn [map]. unfold res_of at 1. rewrite E, Z. f_equal. apply IH. intros p' Hp'. apply A. right. exact Hp'. }
  rewrite ET, <- render_tarr in Jz.
  assert (Ez' : get (v_json u) (35%N :: 46%N :: qcomp q true) = Ok z). { rewrite J. cbn [app]. rewrite Er. exact Ez. }
  assert (Wx : whole (35%N :: 46%N :: qcomp q true)).
  { change (whole (dotted (map step_text [Hash] ++ [qcomp q true]))). apply wh_pieces; [discriminate|]. constructor; [left; apply (step_any Hash), I|constructor; [left; apply any_q, Hq|constructor]]. }
  destruct (flat_behind _ _ z Ls Wx HLs Ez' Jz) as (a & Ea & Xa & Ja). destruct (vget_like u _ a Hu Ea) as (b & Eb & Sb).
  eapply (find_text _ _ y b); [exact Ey|exact Eb|exact Ry|eapply ret_vget; [exact Hu|exact Eb]|rewrite (sa_exists _ _ Sy); exact Xx|].
  rewrite (sa_json _ _ Sy), (sa_json _ _ Sb), Jx, Ja, E2, chosen_concat. unfold Ls. rewrite map_map. reflexivity.
Qed.

(* ---------- names behind @join ---------- *)

Definition mJoin : bytes := bs "@join".
Lemma whole_join : whole mJoin.
Proof. apply stage_whole, stage_simple. reflexivity. Qed.
Definition member_shows (m : memb cst) (kv : value * value) : Prop := shows (fst kv) (CStr (m_key m)) /\ shows (snd kv) (m_val m) /\ returned (snd kv).
Lemma gathered_shows es l : Forall wf (map i_val es) -> Forall2 (fun e x => shows x (i_val e)) es l -> Forall returned l ->
  exists kvs, gathered l kvs /\ Forall2 member_shows (all_members es) kvs.
Proof.
  intros Hw F. induction F as [|e x es l Hx F IH]; intros Hr; [exists []; split; constructor|].
  cbn [map] in Hw. inversion Hw as [|? ? Hc Hcs]; subst. inversion Hr as [|? ? Rx Rl]; subst. destruct (IH Hcs Rl) as (ys & O & Fy). unfold all_members in *. cbn [flat_map].
  destruct (i_val e) as [| | |n|b|w es'|w ms] eqn:Ev;
    try (exists ys; split; [apply ga_other; [rewrite (sh_kind _ _ Hx); discriminate|exact O]|exact Fy]).
  assert (Kx : v_kind x = KObject) by (rewrite (sh_kind _ _ Hx); reflexivity).
  destruct (each_object x w ms [] Hc Kx) as (kvs & Fk & E). { rewrite app_nil_r. apply (sh_json _ _ Hx). }
  pose proof (E _ record_args []) as E0. rewrite visit_record, app_nil_r in E0.
  exists (kvs ++ ys). split; [apply ga_object; [exact Kx|exact E0|exact O]|]. apply Forall2_app; [|exact Fy]. cbn [members_of].
  assert (Rz : Forall (fun kv => returned (snd kv)) kvs).
  { apply Forall_forall. intros [k z] Hz. eapply (ret_value x _ k z Rx E0). apply -> in_rev. exact Hz. }
  clear - Fk Rz. induction Fk as [|? ? ? ? [? ?] ? IH]; inversion Rz; subst; constructor; [split; auto|auto].
Qed.
Lemma gathered_one l ys : gathered l ys -> forall ys', gathered l ys' -> ys' = ys.
Proof.
  induction 1 as [|x ys l zs K A O IH|x l zs K O IH]; intros ys' O'; inversion O' as [|? kvs ? kzs K' A' G'|? ? kzs K' G']; subst; try reflexivity; try contradiction.
  - rewrite A in A'. injection A' as A'. apply (f_equal (@rev _)) in A'. rewrite !rev_involutive in A'. subst. f_equal. apply IH, G'.
  - apply IH, G'.
Qed.
Lemma last_uniq {A} (P : A -> Prop) a x b a' x' b' : a ++ x :: b = a' ++ x' :: b' -> P x -> P x' -> Forall (fun y => ~ P y) b -> Forall (fun y => ~ P y) b' -> x = x'.
Proof.
  revert a'. induction a as [|c a IH]; intros [|c' a'] E Hx Hx' Hb Hb'; cbn [app] in E; injection E as E1 E2.
  - exact E1.
  - subst. exfalso. rewrite Forall_forall in Hb. apply (Hb x'); [apply in_or_app; right; left; reflexivity|exact Hx'].
  - subst. exfalso. rewrite Forall_forall in Hb'. apply (Hb' x); [apply in_or_app; right; left; reflexivity|exact Hx].
  - eapply IH; eassumption.
Qed.
Lemma named_one m n n' : named m n -> named m n' -> n' = n.
Proof. unfold named. congruence. Qed.
Lemma merged_find ms out a m b n : merged ms out -> ms = a ++ m :: b -> named m n -> Forall (fun m' => ~ named m' n) b ->
  exists a' o b', out = a' ++ o :: b' /\ named o n /\ m_val o = m_val m /\ Forall (fun m' => ~ named m' n) a'.
Proof.
  intros Hm E Hn Hb. destruct (P_ModJoin.merged_names ms out Hm) as (N1 & N2 & _).
  destruct (N2 m) as (o & Ho & (n' & On & Mn)). { rewrite E. apply in_or_app. right. left. reflexivity. }
  assert (n' = n) by (eapply named_one; eauto). subst n'. apply in_split in Ho as (a' & b' & Eo). exists a', o, b'. split; [exact Eo|]. split; [exact On|]. split.
  - destruct Hm as (fs & _ & F). rewrite Eo in F. destruct (F2_split_r _ _ _ _ _ F) as (fa & f & fb & _ & _ & (v & (a1 & l1 & b1 & E1 & (n1 & L1 & L2) & B1 & V1) & Ov) & _).
    assert (Fn : named f n) by (subst o; exact On). assert (n1 = n) by (eapply named_one; eauto). subst n1.
    assert (l1 = m). { apply (last_uniq (fun y => named y n) a1 l1 b1 a m b); [congruence|exact L1|exact Hn| |exact Hb].
      eapply Forall_impl; [|exact B1]. intros y Hy Hyn. apply Hy. exists n. auto. }
    subst. reflexivity.
  - apply Forall_forall. intros o' Ho' Hn'. apply in_split in Ho' as (c & d & ->). rewrite <- app_assoc in Eo. cbn [app] in Eo.
    apply (N1 _ _ _ _ _ Eo). exists n. auto.
Qed.
Lemma join_doc s u l : valid s = Ok true -> taken s u -> v_kind u = KArray -> v_array u = Ok l ->
  exists es out kvs v, returned u /\ v_get u mJoin = Ok v /\ returned v /\ v_json v = render (CObj [] out) /\ wf (CObj [] out) /\ merged (all_members es) out /\
    gathered l kvs /\ Forall2 member_shows (all_members es) kvs.
Proof.
  intros Hv Ht Hk Hl. assert (Hu := taken_returned s u Ht).
  destruct (taken_presents s u Hv Ht) as [(X & K & _)|(c & Hc & [P1 P2 (r & Hr & Pj & _) _])]; [congruence|].
  rewrite P2 in Hk. apply kind_arr in Hk as (w & es & ->). cbn [kind_of] in P2.
  destruct (array_elements u w es r Hc P2 Pj) as (l' & El & Fl). rewrite Hl in El. injection El as <-.
  destruct (P_ModJoin.get_join [] w es r None value_default) as (g & out & Eg & Sg & Wo & Mo); [constructor|exact Hc|exact Hr|exact I|reflexivity|reflexivity|].
  destruct (gathered_shows es l (wf_vals _ _ Hc) Fl) as (kvs & G & Fk). { apply Forall_forall. intros x Hx. exact (ret_elem u l x Hu Hl Hx). }
  cbn [app] in Eg. rewrite <- Pj in Eg. change (modifier n_join None) with mJoin in Eg. destruct (vget_like u mJoin g Hu Eg) as (v & Ev & Sv).
  exists es, out, kvs, v. split; [exact Hu|]. split; [exact Ev|]. split; [eapply ret_vget; eauto|]. split; [rewrite (sa_json _ _ Sv); apply (sh_json _ _ Sg)|]. auto.
Qed.
Theorem join_member s u l kvs a k x b n : valid s = Ok true -> taken s u -> v_kind u = KArray -> v_array u = Ok l -> gathered l kvs ->
  kvs = a ++ (k, x) :: b -> v_str k = Ok n -> ~ In 63%N n -> (forall k' x', In (k', x') b -> v_str k' <> Ok n) ->
  exists y, v_get u (mJoin ++ 124%N :: path_escape n) = Ok y /\ same_answers y x.
Proof.
  intros Hv Ht Hk Hl HG El Hs Hq Hlast. destruct (join_doc s u l Hv Ht Hk Hl) as (es & out & kvs' & v & Hu & Ev & Rv & Jv & Wo & Mo & G & F).
  pose proof (gathered_one _ _ HG _ G) as ->. rewrite El in F. destruct (F2_split_r _ _ _ _ _ F) as (a' & m & b' & Em & _ & (Sk & Sx & Rx) & Fb). cbn [fst snd] in Sk, Sx, Rx.
  assert (Nm : named m n). { pose proof (sh_str _ _ Sk) as S4. cbn [text_of] in S4. unfold named. rewrite <- S4. exact Hs. }
  destruct (merged_find _ out a' m b' n Mo Em Nm) as (a2 & o & b2 & Eo & On & Vo & A2).
  { clear - Fb Hlast. induction Fb as [|m' [k' x'] b' b (Sk & _) Fb IH]; constructor.
    - intros N. apply (Hlast k' x' (or_introl eq_refl)). cbn [fst] in Sk. rewrite (sh_str _ _ Sk). exact N.
    - apply IH. intros k0 x0 Hi. apply (Hlast k0 x0). right. exact Hi. }
  destruct (proj1 (get_escaped [] [] out [] n (Forall_nil _) Wo Hq) a2 o b2 n Eo On eq_refl) as (y & Ey & Sy).
  { eapply Forall_impl; [|exact A2]. intros m' H n' Hn' <-. apply H, Hn'. }
  cbn [app] in Ey. rewrite app_nil_r, <- Jv in Ey. destruct (vget_like v _ y Rv Ey) as (z & Ez & Sz).
  rewrite (v_get_whole mJoin whole_join u _), Ev. cbn [bind]. exists z. split; [exact Ez|]. eapply P_Again.same_trans; [exact Sz|].
  rewrite Vo in Sy. apply (shows_same y x (m_val m)); [eapply ret_get; eauto|exact Rx|exact Sy|exact Sx].
Qed.
Theorem join_none s u l kvs n : valid s = Ok true -> taken s u -> v_kind u = KArray -> v_array u = Ok l -> gathered l kvs ->
  ~ In 63%N n -> (forall k x, In (k, x) kvs -> v_str k <> Ok n) ->
  exists y, v_get u (mJoin ++ 124%N :: path_escape n) = Ok y /\ v_exists y = false.
Proof.
  intros Hv Ht Hk Hl HG Hq Hno. destruct (join_doc s u l Hv Ht Hk Hl) as (es & out & kvs' & v & Hu & Ev & Rv & Jv & Wo & Mo & G & F).
  pose proof (gathered_one _ _ HG _ G) as ->. destruct (P_ModJoin.merged_names _ _ Mo) as (_ & _ & N3).
  destruct (proj2 (get_escaped [] [] out [] n (Forall_nil _) Wo Hq)) as (y & Ey & Xy).
  { apply Forall_forall. intros o Ho n' Hn' <-. destruct (N3 o Ho) as (m & Hm & Km). apply In_nth_error in Hm as (i & Hi).
    destruct (F2_at _ _ _ F i m Hi) as ([k x] & Hkx & (Sk & _)). apply nth_error_In in Hkx. apply (Hno k x Hkx). cbn [fst] in Sk. rewrite (sh_str _ _ Sk). cbn [text_of]. rewrite Km. exact Hn'. }
  cbn [app] in Ey. rewrite app_nil_r, <- Jv in Ey. destruct (vget_like v _ y Rv Ey) as (z & Ez & Sz).
  rewrite (v_get_whole mJoin whole_join u _), Ev. cbn [bind]. exists z. split; [exact Ez|]. rewrite (sa_exists _ _ Sz). exact Xy.
Qed.

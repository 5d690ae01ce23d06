(** JSON lines, and the outcome of lookups up to the recorded index. *)
From Verif Require Import P_Base P_Json P_Valid P_ValidSpec P_Str P_Glob P_Scan P_Each P_Doc P_Path P_LGet P_Parts P_Ext P_Total P_Value P_Num
  P_Key P_Find P_GetDoc P_GetArr P_Stream P_Closed P_Reach P_Taken P_Pipe P_Mod P_ModDoc P_Tree P_POut P_Sim
  M_Util M_Num M_Scan M_Value M_Path M_Valid M_Get S_Json S_Get S_Path S_Api S_Follow S_Taken S_Mod M_Pretty S_PrettyArg S_Tree S_Same.

Lemma nix_same a b : nix a = nix b -> same_answers a b.
Proof.
  intros H. pose proof (nix_json _ _ H) as Hj. pose proof (nix_exists _ _ H) as He. pose proof (veq_kind _ _ (nix_veq _ _ H)) as Hk.
  constructor; auto.
  - exact (f_equal v_str H).
  - exact (f_equal v_bool H).
  - exact (f_equal v_f64 H).
  - exact (f_equal v_f32 H).
  - exact (f_equal v_i64 H).
  - exact (f_equal v_i32 H).
  - exact (f_equal v_i16 H).
  - exact (f_equal v_i8 H).
  - exact (f_equal v_u64 H).
  - exact (f_equal v_u32 H).
  - exact (f_equal v_u16 H).
  - exact (f_equal v_u8 H).
  - rewrite !v_array_spec, Hj, Hk. reflexivity.
  - intros Hc. rewrite !v_each_spec, He, <- Hk, Hj. destruct Hc as [-> | ->]; reflexivity.
  - intros x. exact (f_equal (fun v => v_cmp v x) H).
Qed.

Lemma er_outcome x y : er x = er y -> same_outcome x y.
Proof.
  intros H. destruct (er_cases _ _ H) as [(a & b & -> & -> & G)|(e & -> & ->)]; cbn; auto. apply nix_same, G.
Qed.

Lemma parse_get_same json p : valid json = Ok true -> exists u, parse json = Ok u /\ same_outcome (v_get u p) (get json p).
Proof. intros H. destruct (parse_get json p H) as (u & E & G). exists u. split; auto. apply er_outcome, G. Qed.

Lemma lines_elems d ls : Forall wf_item ls -> spaced ls ->
  map nix (map (fval d) (items (lines_text ls))) = map (fun e => nix (tval (i_val e) None)) ls.
Proof.
  intros Hw. induction Hw as [|e ls He Hw IH]; intros Hs; [reflexivity|].
  unfold lines_text in *. cbn [map concat]. destruct He as [a v b Ha Hv Hb]. cbn [render_item].
  rewrite <- !app_assoc. rewrite items_skip by (apply ws_skip_sep; auto).
  assert (Hf : follow (b ++ concat (map (render_item render) ls))).
  { destruct b as [|x b]; [|inversion Hb; subst; simpl; left; assumption]. cbn [app].
    destruct ls as [|[a' v' b'] ls]; [simpl; auto|]. cbn [map concat render_item].
    destruct Hs as [[Hs|Hs] _]; [congruence|]. inversion Hw as [|? ? Hi _]; subst. inversion Hi as [? ? ? Ha' _ _]; subst.
    destruct a' as [|y a']; [congruence|]. inversion Ha'; subst. cbn [app]. simpl. left. assumption. }
  rewrite items_render by auto. cbn [map]. f_equal.
  - rewrite fval_render by auto. reflexivity.
  - rewrite items_skip by (apply ws_skip_sep; auto). apply IH. destruct ls as [|[a' v' b'] ls]; [exact I | apply Hs].
Qed.

Lemma array_path_plain p : array_path p -> split_lines p = (false, p) /\ is_modifier (pnext p) = false /\ is_multipath (pnext p) = false.
Proof.
  intros H. destruct p as [|c t]; [repeat split|]. destruct H as (H1 & H2 & H3 & H4). split.
  - unfold split_lines. destruct t as [|d t]; auto. cbn [hd] in H4.
    destruct (N.eqb_spec c cDOT); auto. destruct (N.eqb_spec d cDOT); auto. exfalso. apply H4; auto.
  - unfold is_modifier, is_multipath. destruct (ps_head _ _ (pnext_shape (c :: t))) as [E|E].
    + rewrite E. auto.
    + destruct (p_comp (pnext (c :: t))) as [|x u]; auto. cbn [hd] in E. subst x.
      split; [|apply orb_false_iff; split]; apply N.eqb_neq; assumption.
Qed.

Lemma lines_like ls w1 w es w2 p : Forall wf_item ls -> spaced ls -> ws w1 -> wf (CArr w es) -> ws w2 -> map i_val es = map i_val ls -> array_path p ->
  er (get (lines_text ls) (46%N :: 46%N :: p)) = er (get (w1 ++ render (CArr w es) ++ w2) p).
Proof.
  intros Hls Hs H1 Hc H2 Hv Hp. destruct (array_path_plain p Hp) as (E1 & E2 & E3). rewrite !get_spec, E1.
  change (split_lines (46%N :: 46%N :: p)) with (true, p). cbv iota beta.
  assert (H : er2 (lget_first get (lines_text ls) true (pnext p)) = er2 (lget_first get (w1 ++ render (CArr w es) ++ w2) false (pnext p))).
  { unfold lget_first. rewrite E2, E3. unfold lstart. pose proof (dropw_doc w1 _ w2 H1 Hc) as D. unfold doc in D. rewrite D.
    cbv zeta. cbn [render app]. change (91 =? 123)%N with false. change (91 =? 91)%N with true. cbv iota.
    apply larr_nix. unfold elems at 1. unfold fe_items. rewrite lines_elems by auto.
    pose proof (elems_tval (w1 ++ render (CArr w es) ++ w2) w es w2 Hc) as HF. cbn [render app] in HF.
    set (xs := elems _ false _) in HF |- *. clearbody xs. clear -Hv HF.
    rewrite <- (map_map i_val (fun c => nix (tval c None)) ls), <- Hv, map_map. clear Hv.
    induction HF as [|e x es l (ix & ->) _ IH]; [reflexivity|]. cbn [map]. rewrite <- IH. reflexivity. }
  destruct (er2_cases _ _ H) as [(x & y & q & -> & -> & E)|(e & -> & ->)]; cbn [bind]; auto.
  destruct (negb (p_more q)); [apply er_ok, E|]. apply v_get_nix, E.
Qed.

Lemma lines_same ls w1 w es w2 p : Forall wf_item ls -> spaced ls -> ws w1 -> wf (CArr w es) -> ws w2 -> map i_val es = map i_val ls -> array_path p ->
  same_outcome (get (lines_text ls) (46%N :: 46%N :: p)) (get (w1 ++ render (CArr w es) ++ w2) p).
Proof. intros. apply er_outcome. apply lines_like; auto. Qed.

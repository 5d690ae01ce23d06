(** Results on valid documents, modifiers apart, are pieces of valid documents. *)
From Verif Require Import P_Base P_Json P_Valid P_ValidSpec P_Str P_Glob P_Scan P_Each P_Doc P_Path P_LGet P_Parts P_Ext P_Total P_Value P_Num
  P_Key P_Find P_GetDoc P_GetArr P_Stream M_Util M_Num M_Scan M_Value M_Path M_Get S_Json S_Get S_Path.

(* ---------- building arrays and objects ---------- *)

Definition mkarr (cs : list cst) : cst := CArr [] (map (fun c => Item [] c []) cs).
Definition key_body (k : bytes) : bytes := flat_map escape_byte k.
Definition mkobj (l : list (bytes * cst)) : cst :=
  CObj [] (map (fun kv => Memb [] (key_body (fst kv)) [] [] (snd kv) []) l).

Lemma render_mkarr cs : render (mkarr cs) = 91%N :: commas (map render cs) ++ [93%N].
Proof.
  unfold mkarr. cbn [render app]. f_equal. f_equal. f_equal. rewrite map_map. apply map_ext. intros c. cbn [render_item app].
  apply app_nil_r.
Qed.
Lemma wf_mkarr cs : Forall wf cs -> wf (mkarr cs).
Proof.
  intros H. constructor; [constructor|]. apply Forall_map. eapply Forall_impl; [|exact H]. intros c Hc. constructor; auto; constructor.
Qed.
Lemma json_string_quoted k : json_string k = quoted (key_body k).
Proof. reflexivity. Qed.
Lemma key_body_chars k : chars (key_body k).
Proof.
  destruct (proj1 (proj2 (escape_json_string k))) as (b & Hb & E). unfold escape in E. rewrite json_string_quoted in E.
  unfold quoted in E. injection E as E. apply app_inv_tail in E. rewrite E. auto.
Qed.
Lemma render_mkobj l : render (mkobj l) = 123%N :: commas (map (fun kv => json_string (fst kv) ++ 58%N :: render (snd kv)) l) ++ [125%N].
Proof.
  unfold mkobj. cbn [render app]. f_equal. f_equal. f_equal. rewrite map_map. apply map_ext. intros c. cbn [render_memb app].
  rewrite json_string_quoted, app_nil_r. reflexivity.
Qed.
Lemma wf_mkobj l : Forall (fun kv => wf (snd kv)) l -> wf (mkobj l).
Proof.
  intros H. constructor; [constructor|]. apply Forall_map. eapply Forall_impl; [|exact H]. intros kv Hc.
  constructor; auto using key_body_chars; constructor.
Qed.

(** The same with whitespace behind the values. *)
Definition mkarrw (l : list (cst * bytes)) : cst := CArr [] (map (fun cw => Item [] (fst cw) (snd cw)) l).
Definition mkobjw (l : list (bytes * (cst * bytes))) : cst :=
  CObj [] (map (fun kv => Memb [] (key_body (fst kv)) [] [] (fst (snd kv)) (snd (snd kv))) l).
Definition rend (cw : cst * bytes) : bytes := render (fst cw) ++ snd cw.

Lemma render_mkarrw l : render (mkarrw l) = 91%N :: commas (map rend l) ++ [93%N].
Proof. unfold mkarrw. cbn [render app]. f_equal. f_equal. f_equal. rewrite map_map. apply map_ext. reflexivity. Qed.
Lemma wf_mkarrw l : Forall (fun cw => wf (fst cw) /\ ws (snd cw)) l -> wf (mkarrw l).
Proof.
  intros H. constructor; [constructor|]. apply Forall_map. eapply Forall_impl; [|exact H]. intros c [Hc Hw]. constructor; auto; constructor.
Qed.
Lemma render_mkobjw l : render (mkobjw l) = 123%N :: commas (map (fun kv => json_string (fst kv) ++ 58%N :: rend (snd kv)) l) ++ [125%N].
Proof.
  unfold mkobjw. cbn [render app]. f_equal. f_equal. f_equal. rewrite map_map. apply map_ext. intros c. cbn [render_memb app].
  rewrite json_string_quoted. reflexivity.
Qed.
Lemma wf_mkobjw l : Forall (fun kv => wf (fst (snd kv)) /\ ws (snd (snd kv))) l -> wf (mkobjw l).
Proof.
  intros H. constructor; [constructor|]. apply Forall_map. eapply Forall_impl; [|exact H]. intros kv [Hc Hw].
  constructor; auto using key_body_chars; constructor.
Qed.

Lemma shows_owned c t info ix : t = render c -> wf c -> is_container c = true -> kindmap (N.land info 255) = kind_of c ->
  has info (N.lor INFO_STRING INFO_ESC) = false -> shows (mkowned t info ix) c.
Proof.
  intros -> Hc Hco Hk Hi. destruct (render_head c Hc) as (h & u & E & _).
  assert (Hj : v_json (mkowned (render c) info ix) = render c).
  { unfold v_json. cbn [mkowned v_owned v_slice]. rewrite E. reflexivity. }
  assert (Hkd : v_kind (mkowned (render c) info ix) = kind_of c).
  { unfold v_kind. cbn [mkowned v_info]. exact Hk. }
  constructor; auto.
  - unfold v_exists. rewrite Hj, E. reflexivity.
  - unfold v_str. rewrite Hkd, Hj. destruct c; try discriminate; reflexivity.
Qed.

Lemma shows_into v c : (v_slice v = [] \/ v_owned v = []) -> shows v c -> shows (json_into_owned v) c.
Proof.
  intros H [H1 H2 H3 H4]. pose proof (json_into_owned_json v H) as E. constructor.
  - unfold v_exists in *. rewrite E. exact H1.
  - rewrite E. exact H2.
  - exact H3.
  - rewrite <- H4. unfold v_str. rewrite E. reflexivity.
Qed.
Lemma shows_index v c ix : shows v c -> shows (add_index ix v) c.
Proof. intros [H1 H2 H3 H4]. constructor; auto. Qed.

(** A value that shows [c], with the whitespace [w] kept behind an array or object. *)
Record showsw (v : value) (c : cst) (w : bytes) : Prop := mkShowsw {
  sw_exists : v_exists v = true;
  sw_json : v_json v = render c ++ w;
  sw_kind : v_kind v = kind_of c;
  sw_str : v_str v = if is_container c then Ok (render c ++ w) else text_of c;
  sw_scalar : is_container c = false -> w = [];
}.
Lemma showsw_nil v c : showsw v c [] <-> shows v c.
Proof.
  split; intros [H1 H2 H3 H4].
  - rewrite app_nil_r in *. constructor; auto. destruct c; auto.
  - constructor; rewrite ?app_nil_r; auto. destruct c; auto.
Qed.
Lemma showsw_into v c w : (v_slice v = [] \/ v_owned v = []) -> showsw v c w -> showsw (json_into_owned v) c w.
Proof.
  intros H [H1 H2 H3 H4 H5]. pose proof (json_into_owned_json v H) as E. constructor; auto.
  - unfold v_exists in *. rewrite E. exact H1.
  - rewrite E. exact H2.
  - rewrite <- H4. unfold v_str. rewrite E. reflexivity.
Qed.
Lemma showsw_index v c w ix : showsw v c w -> showsw (add_index ix v) c w.
Proof. intros [H1 H2 H3 H4 H5]. constructor; auto. Qed.

Section Closed.
Context (K : bytes -> Prop) (V : cst -> Prop) (PP KK : bytes -> Prop).
Context (Hcl : closed K V).
Context (HVnum : forall n, V (CNum (dec_of_nat n))).
(** [W]: whitespace behind a result; [D]: whitespace behind a document. *)
Context (W D : bytes -> Prop) (HWws : forall w, W w -> ws w) (HDws : forall w, D w -> ws w) (HWD : forall w, W w -> D w) (HWnil : W []).
Context (HVarr : forall l, Forall (fun cw => V (fst cw) /\ W (snd cw)) l -> V (mkarrw l)).
Context (HVobj : forall l, Forall (fun kv => KK (fst kv) /\ V (fst (snd kv)) /\ W (snd (snd kv))) l -> V (mkobjw l)).

Definition ppath (p : path) : Prop := PP (p_comp p) /\ (p_more p = true -> PP (p_extra p)).
Context (HPnil : PP []).
Context (HPlines : forall t, PP t -> PP (snd (split_lines t))).
Context (HPnext : forall t, PP t -> ppath (pnext t)).
Context (HPgroup : forall e g r, PP e -> group e = (g, r) -> PP g /\ (p_more r = true -> PP (p_extra r))).
Context (HPcomps : forall a p z k q, PP (a :: p ++ [z]) -> a = 91%N \/ a = 123%N -> z = 93%N \/ z = 125%N ->
  In (k, q) (comps p) -> KK k /\ PP q).

Definition good (v : value) : Prop :=
  (v_slice v = [] \/ v_owned v = []) /\ ((v_json v = [] /\ v_info v = 0%N) \/ exists c w, wf c /\ V c /\ W w /\ showsw v c w).
Definition dj (json : bytes) : Prop :=
  json = [] \/ exists w1 c w2, json = doc w1 c w2 /\ ws w1 /\ wf c /\ V c /\ D w2.
Context (HPmod : forall t json v p', PP t -> is_modifier (pnext t) = true -> dj json ->
  mod_exec get json (pnext t) = Ok (v, p') -> good v /\ p' = pnext t).
Definition gets_good (g : getter) (t : bytes) : Prop := forall j v, dj j -> g j t = Ok v -> good v.

Lemma good_default : good value_default.
Proof. split; left; [reflexivity | split; reflexivity]. Qed.
Lemma good_tval c ix : wf c -> V c -> good (tval c ix).
Proof. intros H1 H2. split; [right; reflexivity|]. right. exists c, []. do 3 (split; [auto|]). apply showsw_nil, tval_shows; auto. Qed.
Lemma dj_render c w : wf c -> V c -> W w -> dj (render c ++ w).
Proof. intros H1 H2 H3. right. exists [], c, w. unfold doc. cbn [app]. repeat split; auto; constructor. Qed.

Lemma good_into v : good v -> good (json_into_owned v).
Proof.
  intros [H1 H2]. split; [left; reflexivity|]. rewrite json_into_owned_json by auto.
  destruct H2 as [H2|(c & w & Hc & HV & Hw & Hs)]; auto. right. exists c, w. auto using showsw_into.
Qed.
Lemma good_index v ix : good v -> good (add_index ix v).
Proof. intros [H1 H2]. split; [exact H1|]. destruct H2 as [H2|(c & w & Hc & HV & Hw & Hs)]; [left; exact H2|]. right. exists c, w. auto using showsw_index. Qed.

Lemma good_get_dj g v t r : gets_good g t -> (v_slice v = [] \/ v_owned v = []) -> dj (v_json v) -> v_get_with g v t = Ok r -> good r.
Proof.
  intros Hg H1 Hd. unfold v_get_with. unfold v_json in Hd. destruct (v_slice v) as [|a s] eqn:Es.
  - assert (Ho : dj (v_owned v)) by (destruct (v_owned v); auto).
    intros H. apply bind_ok in H as (x & E & H). injection H as <-. apply bind_ok in E as (y & E & Ey). injection Ey as <-.
    apply good_index, good_into. eapply Hg; eauto.
  - destruct H1 as [H1|H1]; [discriminate|]. rewrite H1 in Hd.
    intros H. apply bind_ok in H as (x & E & H). injection H as <-. apply good_index. eapply Hg; eauto.
Qed.
Lemma good_get g v t r : gets_good g t -> good v -> v_get_with g v t = Ok r -> good r.
Proof.
  intros Hg [H1 H2]. apply good_get_dj; auto.
  destruct H2 as [[-> _]|(c & w & Hc & HV & Hw & Hs)]; [left; reflexivity|]. rewrite (sw_json _ _ _ Hs). apply dj_render; auto.
Qed.

Lemma good_pieces ys : Forall good ys -> exists l, Forall (fun cw => wf (fst cw) /\ ws (snd cw)) l /\
  Forall (fun cw => V (fst cw) /\ W (snd cw)) l /\ map v_json (filter v_exists ys) = map rend l.
Proof.
  induction 1 as [|y ys Hy _ (cs & H1 & H2 & H3)]; [exists []; repeat split; constructor|]. cbn [filter].
  destruct (v_exists y) eqn:Ey; [|eauto]. destruct Hy as [_ [[Hy _]|(c & w & Hc & HV & Hw & Hs)]].
  { unfold v_exists in Ey. rewrite Hy in Ey. discriminate. }
  exists ((c, w) :: cs). split; [|split].
  - constructor; auto.
  - constructor; auto.
  - cbn [map]. rewrite H3, (sw_json _ _ _ Hs). reflexivity.
Qed.

Lemma good_owned c t info : t = render c -> wf c -> V c -> is_container c = true -> kindmap (N.land info 255) = kind_of c ->
  has info (N.lor INFO_STRING INFO_ESC) = false -> good (mkowned t info None).
Proof.
  intros. split; [left; reflexivity|]. right. exists c, []. do 3 (split; [auto|]). apply showsw_nil, shows_owned; auto.
Qed.
Lemma good_array ys : Forall good ys -> good (mkowned (fst (fold_left push_elem ys ([91%N], 0)) ++ [93%N]) INFO_ARRAY None).
Proof.
  intros H. rewrite push_list0. destruct (good_pieces ys H) as (cs & H1 & H2 & ->). rewrite <- render_mkarrw.
  apply (good_owned (mkarrw cs)); auto using wf_mkarrw.
Qed.
Lemma good_count n : good (mkowned (dec_of_nat n) INFO_NUMBER None).
Proof.
  destruct (dec_of_nat_spec n) as [_ Hn]. split; [left; reflexivity|]. right. exists (CNum (dec_of_nat n)), [].
  split; [constructor; auto|]. split; [apply HVnum|]. split; [apply HWnil|]. apply showsw_nil.
  assert (Hj : v_json (mkowned (dec_of_nat n) INFO_NUMBER None) = dec_of_nat n).
  { unfold v_json. cbn [mkowned v_owned v_slice]. destruct (dec_of_nat n); reflexivity. }
  destruct (number_head _ Hn) as (h & t & E & _). split.
  - unfold v_exists. rewrite Hj, E. reflexivity.
  - exact Hj.
  - reflexivity.
  - unfold v_str. change (v_kind (mkowned (dec_of_nat n) INFO_NUMBER None)) with KNumber. cbv match. rewrite Hj. reflexivity.
Qed.

Lemma push_all_good f : forall xs st st', (forall x y, In x xs -> f x = Ok (Some y) -> good y) ->
  push_all f xs st = Ok st' -> exists ys, Forall good ys /\ st' = fold_left push_elem ys st.
Proof.
  induction xs as [|x xs IH]; intros st st' Hf; cbn [push_all].
  - intros H. injection H as <-. exists []. split; [constructor | reflexivity].
  - intros H. apply bind_ok in H as (o & Eo & H).
    apply IH in H as (ys & Hys & ->); [|intros; eapply Hf; eauto; right; auto].
    destruct o as [y|]; [|eauto]. exists (y :: ys). split; [|reflexivity]. constructor; auto. eapply Hf; eauto. left; auto.
Qed.
Lemma find_r_good f : forall xs v, Forall good xs -> find_r f xs = Ok v -> good v.
Proof.
  induction xs as [|x xs IH]; intros v Hx; cbn [find_r].
  - intros H. injection H as <-. apply good_default.
  - inversion Hx; subst. intros H. apply bind_ok in H as ([] & _ & H); [injection H as <-; auto | apply IH; auto].
Qed.

Lemma larr_good g text json lines l p v p' : pin text p -> ppath p ->
  (forall t, length t < length text -> PP t -> gets_good g t) ->
  Forall good (elems json lines l) -> larr g json lines l p = Ok (v, p') -> good v /\ ppath p'.
Proof.
  intros Hpin Hp Hg Hxs. unfold larr. cbv zeta.
  assert (Hidx : forall b : bool, Ok (if b then nth (Z.to_nat (comp_index (p_comp p))) (elems json lines l) value_default else value_default, p)
            = Ok (v, p') -> good v /\ ppath p').
  { intros b H. injection H as <- <-. split; auto. destruct b; [|apply good_default].
    destruct (nth_in_or_default (Z.to_nat (comp_index (p_comp p))) (elems json lines l) value_default) as [Hi| ->]; [|apply good_default].
    apply (proj1 (Forall_forall _ _) Hxs); auto. }
  destruct (p_comp p) as [|c t] eqn:Ec; [apply Hidx|].
  destruct (c =? 35)%N; [|apply Hidx].
  assert (Hgrp : forall gr rest, next_group p = Ok (gr, rest) ->
      ppath rest /\ ((p_sep p =? 46)%N = true -> PP gr /\ length gr < length text)).
  { intros gr rest. rewrite next_group_spec. destruct (p_sep p =? 46)%N eqn:Es.
    - intros H. injection H as H. destruct (HPgroup _ _ _ (proj2 Hp (sep_dot_more _ Es)) H) as [Hg1 Hg2].
      pose proof (pin_group _ _ _ _ Hpin Es H) as (_ & _ & Hl). apply group_shape in H as (H & _).
      split; [split; [rewrite H; exact HPnil | auto]|]. auto.
    - intros H. injection H as <- <-. split; auto. discriminate. }
  destruct t as [|d t'].
  - destruct (p_sep p =? 46)%N.
    + intros H. apply bind_ok in H as ([gr rest] & E & H). apply bind_ok in H as (st & Est & H).
      destruct (Hgrp _ _ E) as (Hrest & HG). destruct (HG eq_refl) as [HG1 HG2].
      injection H as <- <-. split; auto. apply push_all_good in Est as (ys & Hys & ->); [apply good_array; auto|].
      intros x y Hx Hy. apply bind_ok in Hy as (z & Ez & Hy). injection Hy as <-.
      eapply good_get; [apply Hg; eauto | apply (proj1 (Forall_forall _ _) Hxs); eauto | exact Ez].
    + intros H. injection H as <- <-. split; auto. apply good_count.
  - destruct (last (d :: t') 0 =? 35)%N.
    + intros H. apply bind_ok in H as ([[lh op] rh] & _ & H). apply bind_ok in H as ([gr rest] & E & H).
      apply bind_ok in H as (st & Est & H). destruct (Hgrp _ _ E) as (Hrest & HG).
      injection H as <- <-. split; auto. apply push_all_good in Est as (ys & Hys & ->); [apply good_array; auto|].
      intros x y Hx Hy. pose proof (proj1 (Forall_forall _ _) Hxs x Hx) as Hgx.
      apply bind_ok in Hy as ([] & _ & Hy); [|discriminate].
      destruct (p_sep p =? 46)%N; [|injection Hy as <-; auto].
      destruct (HG eq_refl) as [HG1 HG2]. apply bind_ok in Hy as (z & Ez & Hy). injection Hy as <-.
      eapply good_get; [apply Hg; eauto | exact Hgx | exact Ez].
    + intros H. apply bind_ok in H as ([[lh op] rh] & _ & H). apply bind_ok in H as (x & Ex & H).
      injection H as <- <-. split; auto. eapply find_r_good; eauto.
Qed.

Lemma elems_good json w es r : wf (CArr w es) -> V (CArr w es) -> Forall good (elems json false (render (CArr w es) ++ r)).
Proof.
  intros Hc HV. pose proof (elems_tval json w es r Hc) as H. pose proof (wf_items _ _ Hc) as Hes.
  assert (HVs : Forall (fun e => V (i_val e)) es).
  { apply Forall_forall. intros e He. destruct Hcl as (C1 & _). eapply C1; eauto. }
  clear Hc HV. induction H as [|e x es xs (ix & ->) H IH]; constructor; inversion Hes; inversion HVs; subst; auto using good_tval, wf_ival.
Qed.

Lemma elems_lines json w1 c w2 : ws w1 -> wf c -> ws w2 ->
  elems json true (doc w1 c w2) = [tval c (Some (pos json (render c ++ w2)))].
Proof.
  intros H1 Hc H2. unfold elems, fe_items, doc. rewrite items_skip by (apply ws_skip_sep; auto).
  assert (Hf : follow w2) by (rewrite <- (app_nil_r w2); apply follow_ws; auto; exact I).
  rewrite items_render by auto. cbn [map]. rewrite fval_render by auto. f_equal.
  rewrite <- (app_nil_r w2) at 1. rewrite items_skip by (apply ws_skip_sep; auto). reflexivity.
Qed.

Lemma stream_members w ms r : wf (CObj w ms) -> V (CObj w ms) ->
  stream K V (commas (map (render_memb render) ms) ++ 125%N :: r).
Proof.
  intros Hc HV. pose proof (wf_membs _ _ Hc) as Hms.
  assert (Hin : forall m, In m ms -> V (m_val m) /\ K (m_key m)).
  { intros m Hm. destruct Hcl as (_ & C2 & _). eapply C2; eauto. }
  pose proof (stream_obj_tail K V Hcl ms r Hms Hin) as H. destruct ms as [|m ms]; [apply st_brace|].
  cbn [obj_tail] in H. inversion H; subst; auto; discriminate.
Qed.

Lemma lobj_good g text json : (forall t, length t < length text -> PP t -> gets_good g t) ->
  forall fuel c r p v p', wf c -> V c -> suf (render c ++ r) json -> pin text p -> ppath p ->
  lobj fuel g json (render c ++ r) p = Ok (v, p') -> good v /\ ppath p'.
Proof.
  intros Hg. induction fuel as [|fuel IH]; intros c r p v p' Hc HV Hs Hpin Hp; [discriminate|].
  assert (Hd : Ok (value_default, p) = Ok (v, p') -> good v /\ ppath p').
  { intros H. injection H as <- <-. auto using good_default. }
  destruct c as [ | | |n|b|w es|w ms]; try (cbn [lobj render t_null t_true t_false quoted app N.eqb Pos.eqb negb]; apply Hd).
  - inversion Hc; subst. destruct (number_head n) as (h & t & -> & Hh); auto. cbn [render app lobj].
    replace (h =? 123)%N with false by lia. apply Hd.
  - assert (Hw : ws w) by (inversion Hc; auto). rewrite lobj_render by auto. intros E.
    assert (Hsuf : suf (commas (map (render_memb render) ms) ++ 125%N :: r) json).
    { eapply suf_trans; [|exact Hs]. cbn [render]. exists (123%N :: w). rewrite <- !app_comm_cons, <- !app_assoc. reflexivity. }
    pose proof (lloop_stream K V _ json p _ (stream_members w ms r Hc HV) Hsuf v p' E) as [[-> ->]|[(c & ix & Hc' & HV' & -> & ->)|(c & r' & Hc' & HV' & Hco & Hf & Hsr & Hdot & Els)]].
    + auto using good_default.
    + auto using good_tval.
    + unfold lsub_of in Els. cbv zeta in Els. pose proof (pin_next _ _ Hpin) as Hq.
      pose proof (HPnext _ (proj2 Hp (sep_dot_more _ Hdot))) as Hpq.
      destruct (_ || _); [discriminate|]. apply bind_ok in Els as ([v1 p1] & E1 & Els). destruct (v_exists v1); [|discriminate].
      injection Els as <- <-. destruct c as [ | | |n|b|w' es|w' ms']; try discriminate.
      * change (render (CArr w' es) ++ r') with (91%N :: (w' ++ commas (map (render_item render) es) ++ [93%N]) ++ r') in E1.
        cbn [N.eqb Pos.eqb] in E1. eapply larr_good; [exact Hq | exact Hpq | exact Hg | | exact E1].
        exact (elems_good json w' es r' Hc' HV').
      * change (render (CObj w' ms') ++ r') with (123%N :: (w' ++ commas (map (render_memb render) ms') ++ [125%N]) ++ r') in E1.
        cbn [N.eqb Pos.eqb] in E1. eapply (IH (CObj w' ms') r'); eauto.
Qed.

Lemma multi_arr_good g json : dj json -> forall cs st st', Forall (fun kp => gets_good g (snd kp)) cs ->
  multi_arr g json cs st = Ok st' -> exists ys, Forall good ys /\ st' = fold_left push_elem ys st.
Proof.
  intros Hj. induction cs as [|[k p] cs IH]; intros st st' Hcs; cbn [multi_arr].
  - intros H. injection H as <-. exists []. split; [constructor | reflexivity].
  - inversion Hcs as [|? ? H1 H2]; subst. intros H. apply bind_ok in H as (y & Ey & H).
    apply IH in H as (ys & Hys & ->); auto. exists (y :: ys). split; [|reflexivity]. constructor; auto. eapply H1; eauto.
Qed.

Definition push_memb (st : bytes * nat) (kv : bytes * value) : bytes * nat :=
  let '(out, index) := st in
  if v_exists (snd kv) then
    ((if 0 <? index then out ++ [44%N] else out) ++ json_string (fst kv) ++ [58%N] ++ v_json (snd kv), index + 1)
  else st.
Lemma multi_obj_good g json : dj json -> forall cs st st', Forall (fun kp => KK (fst kp) /\ gets_good g (snd kp)) cs ->
  multi_obj g json cs st = Ok st' -> exists ys, Forall (fun kv => KK (fst kv) /\ good (snd kv)) ys /\ st' = fold_left push_memb ys st.
Proof.
  intros Hj. induction cs as [|[k p] cs IH]; intros st st' Hcs; cbn [multi_obj].
  - intros H. injection H as <-. exists []. split; [constructor | reflexivity].
  - inversion Hcs as [|? ? [H1 H1'] H2]; subst. intros H. apply bind_ok in H as (y & Ey & H). destruct st as [o n].
    apply IH in H as (ys & Hys & ->); auto. exists ((k, y) :: ys). split; [|reflexivity]. constructor; auto. split; auto. eapply H1'; eauto.
Qed.
Lemma push_membs (ys : list (bytes * value)) : forall out n, exists n',
  fold_left push_memb ys (out, n) =
    (out ++ match map (fun kv => json_string (fst kv) ++ 58%N :: v_json (snd kv)) (filter (fun kv => v_exists (snd kv)) ys) with
            | [] => []
            | x :: t => if 0 <? n then 44%N :: commas (x :: t) else commas (x :: t)
            end, n').
Proof using Type.
  induction ys as [|x xs IH]; intros out n; cbn [fold_left filter map].
  - exists n. rewrite app_nil_r. reflexivity.
  - unfold push_memb at 2. destruct (v_exists (snd x)) eqn:Ex; [|apply IH].
    destruct (IH ((if 0 <? n then out ++ [44%N] else out) ++ json_string (fst x) ++ [58%N] ++ v_json (snd x)) (n + 1)) as (n' & E).
    exists n'. rewrite E. f_equal. cbn [map].
    replace (0 <? n + 1) with true by (destruct n; reflexivity).
    destruct (map _ (filter _ xs)) as [|y l].
    + rewrite app_nil_r. cbn [commas]. destruct (0 <? n); rewrite <- ?app_assoc; reflexivity.
    + cbn [commas]. destruct (0 <? n); rewrite <- !app_assoc; cbn [app]; rewrite <- ?app_assoc; reflexivity.
Qed.
Lemma push_membs0 ys : fst (fold_left push_memb ys ([123%N], 0)) ++ [125%N] =
  123%N :: commas (map (fun kv => json_string (fst kv) ++ 58%N :: v_json (snd kv)) (filter (fun kv => v_exists (snd kv)) ys)) ++ [125%N].
Proof using Type.
  destruct (push_membs ys [123%N] 0) as (n' & ->). cbn [fst Nat.ltb Nat.leb app].
  destruct (map _ (filter _ ys)); reflexivity.
Qed.
Lemma good_object (ys : list (bytes * value)) : Forall (fun kv => KK (fst kv) /\ good (snd kv)) ys ->
  good (mkowned (fst (fold_left push_memb ys ([123%N], 0)) ++ [125%N]) INFO_OBJECT None).
Proof.
  intros H. rewrite push_membs0.
  assert (E : exists l, Forall (fun kv => wf (fst (snd kv)) /\ ws (snd (snd kv))) l /\
    Forall (fun kv => KK (fst kv) /\ V (fst (snd kv)) /\ W (snd (snd kv))) l /\
    map (fun kv => json_string (fst kv) ++ 58%N :: v_json (snd kv)) (filter (fun kv => v_exists (snd kv)) ys) =
    map (fun kv => json_string (fst kv) ++ 58%N :: rend (snd kv)) l).
  { induction H as [|[k y] ys [Hk Hy] _ (cs & H1 & H2 & H3)]; [exists []; repeat split; constructor|]. cbn [filter snd fst] in *.
    destruct (v_exists y) eqn:Ey; [|eauto]. destruct Hy as [_ [[Hy _]|(c & w & Hc & HV & Hw & Hs)]].
    { unfold v_exists in Ey. rewrite Hy in Ey. discriminate. }
    exists ((k, (c, w)) :: cs). split; [|split].
    - constructor; auto.
    - constructor; auto.
    - cbn [map fst snd]. rewrite H3, (sw_json _ _ _ Hs). reflexivity. }
  destruct E as (l & H1 & H2 & ->). rewrite <- render_mkobjw. apply (good_owned (mkobjw l)); auto using wf_mkobjw.
Qed.

Lemma multi_exec_good g text json p v p' : is_multipath p = true -> pin text p -> ppath p -> dj json ->
  (forall t, length t < length text -> PP t -> gets_good g t) ->
  multi_exec g json p = Ok (v, p') -> good v /\ ppath p'.
Proof.
  intros Hmp Hpin Hp Hj Hg H. unfold multi_exec in H. unfold is_multipath in Hmp. destruct (p_comp p) as [|a t] eqn:Ec; [discriminate|].
  assert (Ha : a = 91%N \/ a = 123%N) by (change cLBRC with 123%N in Hmp; change cLBRK with 91%N in Hmp; lia).
  assert (Hcs : forall l z, usub (length (a :: t)) 1 = Ok l -> idx (a :: t) l = Ok z -> z = 93%N \/ z = 125%N ->
    forall cs, each_comp (a :: t) = Ok cs -> Forall (fun kp => KK (fst kp) /\ gets_good g (snd kp)) cs).
  { intros l z0 El Ez Hz cs E. pose proof (each_comp_short _ _ E) as Hsh. destruct (app_last_case t) as [-> | (m & z & ->)]; [discriminate|].
    assert (z0 = z) as ->.
    { assert (l = length (a :: m)) as ->.
      { unfold usub in El. destruct (length (a :: m ++ [z]) <? 1); [discriminate|]. injection El as <-. cbn [length]. rewrite app_length. cbn [length]. lia. }
      unfold idx in Ez. change (a :: m ++ [z]) with ((a :: m) ++ [z]) in Ez.
      rewrite nth_error_app2 in Ez by apply le_n. rewrite Nat.sub_diag in Ez.
      injection Ez as <-. reflexivity. }
    rewrite each_comp_spec in E. injection E as <-. apply Forall_forall. intros [k q] Hq.
    pose proof (proj1 (Forall_forall _ _) Hsh _ Hq) as [Hi Hl]. destruct Hp as [Hp1 _]. rewrite Ec in Hp1.
    destruct (HPcomps _ _ _ _ _ Hp1 Ha Hz Hq) as [Hk HPq]. split; auto. cbn [snd] in *. apply Hg; auto.
    pose proof (pin_comp _ _ Hpin) as Hcc. rewrite Ec in Hcc. apply infix_length in Hcc. lia. }
  apply bind_ok in H as (c & Ec0 & H). apply bind_ok in H as (l & El & H). apply bind_ok in H as (z & Ez & H).
  change (idx (a :: t) 0) with (@Ok N a) in Ec0. injection Ec0 as <-. specialize (Hcs l z El Ez).
  assert (Hd : Ok (value_default, path_default) = Ok (v, p') -> good v /\ ppath p').
  { intros E. injection E as <- <-. split; [apply good_default | split; intros; exact HPnil]. }
  destruct (a =? cLBRK)%N eqn:Ea.
  - destruct (negb (z =? cRBRK)%N) eqn:Ezz; [auto|]. specialize (Hcs ltac:(change cRBRK with 93%N in Ezz; lia)).
    apply bind_ok in H as (cs & Ecs & H). apply bind_ok in H as ([o n] & Em & H). rewrite json_from_owned_eq in H. cbn [bind] in H.
    injection H as <- <-. split; auto.
    apply multi_arr_good in Em as (ys & Hys & E); auto; [|eapply Forall_impl; [|apply (Hcs _ Ecs)]; intros ? [_ ?]; auto].
    change ([cLBRK], 0) with ([91%N], 0) in E. pose proof (good_array ys Hys) as Hgd. rewrite <- E in Hgd. exact Hgd.
  - destruct ((a =? cLBRC)%N && negb (z =? cRBRC)%N) eqn:Ezz; [auto|].
    specialize (Hcs ltac:(change cRBRC with 125%N in Ezz; change cLBRC with 123%N in Ezz; change cLBRK with 91%N in Ea; lia)).
    apply bind_ok in H as (cs & Ecs & H). apply bind_ok in H as ([o n] & Em & H). rewrite json_from_owned_eq in H. cbn [bind] in H.
    injection H as <- <-. split; auto.
    apply multi_obj_good in Em as (ys & Hys & E); auto.
    change ([cLBRC], 0) with ([123%N], 0) in E. pose proof (good_object ys Hys) as Hgd. rewrite <- E in Hgd. exact Hgd.
Qed.

Theorem get_good : forall n text, length text <= n -> PP text -> gets_good get text.
Proof.
  induction n as [n IH] using lt_wf_ind. intros text Hn HP json v Hj. rewrite get_spec.
  pose proof (HPlines text HP) as Ht.
  destruct (split_lines text) as [lines t] eqn:El. apply split_lines_infix in El. cbn [snd] in Ht. cbv zeta.
  pose proof (pin_pnext t) as Hpin. pose proof (HPnext t Ht) as Hp. pose proof (infix_length _ _ El) as Hlen.
  assert (Hg : forall t', length t' < length t -> PP t' -> gets_good get t').
  { intros t' Ht' HPt'. apply (IH (length t')); auto. lia. }
  intros H. apply bind_ok in H as ([v0 p'] & E & H).
  pose proof (lget_first_pin _ _ _ _ _ _ _ Hpin E) as Hpin'.
  assert (Hv : good v0 /\ ppath p').
  { unfold lget_first in E. destruct lines.
    - eapply larr_good; [exact Hpin | exact Hp | exact Hg | | exact E].
      destruct Hj as [->|(w1 & c & w2 & -> & H1 & H2 & H3 & H4)]; [constructor|].
      rewrite elems_lines by auto. constructor; [apply good_tval; auto | constructor].
    - destruct (is_modifier (pnext t)) eqn:Emd.
      { destruct (HPmod t json v0 p' Ht Emd Hj E) as [Hv ->]. auto. }
      destruct (is_multipath (pnext t)) eqn:Emp; [exact (multi_exec_good get t json (pnext t) v0 p' Emp Hpin Hp Hj Hg E)|].
      assert (Hd : Ok (value_default, pnext t) = Ok (v0, p') -> good v0 /\ ppath p').
      { intros E'. injection E' as <- <-. auto using good_default. }
      destruct Hj as [->|(w1 & c & w2 & -> & H1 & H2 & H3 & H4)]; [apply Hd; exact E|].
      destruct c as [ | | |k|b|w es|w ms]; try (rewrite lstart_scalar in E by auto; auto).
      + rewrite lstart_arr in E by auto. eapply larr_good; [exact Hpin | exact Hp | exact Hg | | exact E]. apply elems_good; auto.
      + rewrite lstart_obj in E by auto. eapply lobj_good; [exact Hg | exact H2 | exact H3 | apply suf_doc | exact Hpin | exact Hp | exact E]. }
  destruct Hv as [Hv Hp']. destruct (p_more p') eqn:Em; cbn [negb] in H; [|injection H as <-; exact Hv].
  eapply good_get; [|exact Hv | exact H]. apply Hg; [|apply Hp', Em]. apply (pin_short _ _ Hpin' Em).
Qed.
End Closed.

(* ---------- all valid documents, paths without the at sign ---------- *)

Definition no_at (t : bytes) : Prop := ~ In 64%N t.
Lemma no_at_infix a b : infix a b -> no_at b -> no_at a.
Proof. intros H Hb Ha. apply Hb. eapply infix_in; eauto. Qed.

Lemma no_at_modifier t : no_at t -> is_modifier (pnext t) = false.
Proof.
  intros Hat. pose proof (pin_pnext t) as [H1 _ _]. unfold is_modifier. destruct (p_comp (pnext t)) as [|c u]; auto.
  destruct (N.eqb_spec c cAT) as [->|]; auto. exfalso. apply Hat. eapply infix_in; [exact H1 | left; reflexivity].
Qed.
Lemma get_wf text json v : no_at text -> json = [] \/ (exists w1 c w2, json = doc w1 c w2 /\ ws w1 /\ wf c /\ ws w2) ->
  get json text = Ok v -> (v_slice v = [] \/ v_owned v = []) /\ ((v_json v = [] /\ v_info v = 0%N) \/ exists c, wf c /\ shows v c).
Proof.
  intros Ht Hj E.
  assert (H : good (fun _ => True) (eq []) v).
  { eapply (get_good (fun _ => True) (fun _ => True) no_at (fun _ => True)) with (W := eq []) (D := ws) (n := length text) (text := text) (j := json) (v := v);
      [| | | | | | | | | | | | | |exact (le_n _)|exact Ht| |exact E].
    - repeat split.
    - exact (fun _ => I).
    - intros w <-. constructor.
    - auto.
    - intros w <-. constructor.
    - reflexivity.
    - exact (fun _ _ => I).
    - exact (fun _ _ => I).
    - intros [].
    - intros t Hat. destruct (split_lines t) as [b u] eqn:Es. exact (no_at_infix _ _ (split_lines_infix _ _ _ Es) Hat).
    - intros t Hat. pose proof (pin_pnext t) as [H1 H2 _]. split; intros; eapply no_at_infix; eauto.
    - intros e g r He Hg. apply group_length in Hg as (_ & H1 & H2 & _). split; intros; eapply no_at_infix; eauto.
    - intros a p z k q Hp _ _ Hq. split; auto. apply comps_infix in Hq. eapply no_at_infix; [exact Hq|].
      eapply no_at_infix; [|exact Hp]. exists [a], [z]. reflexivity.
    - intros t j v' p' Hat Hm. rewrite (no_at_modifier t Hat) in Hm. discriminate.
    - destruct Hj as [->|(w1 & c & w2 & -> & H1 & H2 & H3)]; [left; auto|]. right. exists w1, c, w2. auto. }
  destruct H as [H1 [H2|(c & w & Hc & _ & <- & Hs)]]; split; eauto. right. exists c. split; auto. apply showsw_nil, Hs.
Qed.

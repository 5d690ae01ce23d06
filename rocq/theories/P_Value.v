(** Values and their accessors. *)
From Coq Require Import Floats.SpecFloat.
From Verif Require Import P_Base P_Json P_Valid P_ValidSpec P_Str P_Scan P_Each P_Doc P_LGet
  M_Util M_Num M_Scan M_Value S_Str S_Get.

(* ---------- info bits ---------- *)

Lemma land_lor_num x y : N.land (N.lor x y) 255 = N.lor (N.land x 255) (N.land y 255).
Proof. apply N.land_lor_distr_l. Qed.

Lemma num_info_low l : forall i, N.land i 255 = 0%N -> N.land (num_info i l) 255 = 0%N.
Proof.
  induction l as [|c l IH]; intros i Hi; cbn [num_info]; auto.
  apply IH. destruct (c =? 46)%N; [|destruct ((c =? 101) || (c =? 69))%N]; auto;
    rewrite land_lor_num, Hi; reflexivity.
Qed.

Lemma kind_ginfo c : wf c -> kindmap (N.land (ginfo c) 255) = kind_of c.
Proof.
  intros H. destruct c as [ | | |n|b|w es|w ms]; try reflexivity.
  - inversion H; subst. destruct (number_head n) as (h & t & -> & _); auto. cbn [ginfo kind_of].
    rewrite land_lor_num, num_info_low; [reflexivity|]. unfold sign_info. destruct (h =? 45)%N; reflexivity.
  - cbn [ginfo kind_of]. unfold esc_info. destruct (hasbsl b); reflexivity.
Qed.

Lemma sdec_un b : Forall (fun c => (32 <= c)%N) b -> sdec b = un b.
Proof.
  unfold sdec. intros H. destruct (hasbsl b) eqn:E; auto.
  induction H as [|c t Hc _ IH]; auto. cbn [hasbsl existsb] in E. apply orb_false_iff in E as [E1 E2].
  rewrite un_plain by (auto; lia). f_equal. apply IH. exact E2.
Qed.
Lemma sdec_chars b : chars b -> unescape (quoted b) = Ok (sdec b).
Proof. intros H. rewrite unescape_quoted, sdec_un; auto. apply chars_no_control; auto. Qed.

Lemma has_esc_string b : has (N.lor (esc_info b) INFO_STRING) INFO_ESC = hasbsl b.
Proof. unfold esc_info. destruct (hasbsl b); reflexivity. Qed.

Lemma tval_shows c ix : wf c -> shows (tval c ix) c.
Proof.
  intros H. constructor.
  - apply tval_exists; auto.
  - reflexivity.
  - unfold v_kind, tval. cbn [mkslice v_info]. apply kind_ginfo; auto.
  - unfold v_str. unfold v_kind. unfold tval at 1. cbn [mkslice v_info]. rewrite kind_ginfo by auto.
    destruct c as [ | | |n|b|w es|w ms]; try reflexivity. cbn [kind_of text_of].
    unfold tval. cbn [mkslice v_info v_uesc ginfo]. rewrite has_esc_string. cbn [render].
    inversion H; subst. rewrite sdec_chars by auto. unfold sdec.
    destruct (hasbsl b) eqn:E.
    + unfold esc_of. unfold esc_info. rewrite E.
      change (has (N.lor INFO_ESC INFO_STRING) (N.lor INFO_STRING INFO_ESC)) with true. cbv match.
      f_equal. apply unesc_quoted.
    + apply strip_quotes_quoted.
Qed.

Lemma fval_shows json c r : wf c -> follow r -> shows (fval json (render c ++ r)) c.
Proof. intros H Hr. rewrite fval_render by auto. apply tval_shows; auto. Qed.

(* ---------- each and array ---------- *)

Lemma visit_run {S A} (step : S -> A -> R (S * bool)) l : forall st, run step st l = visit step st l.
Proof.
  reflexivity.
Qed.

Lemma exists_json v c t : v_json v = c :: t -> v_exists v = true.
Proof. unfold v_exists. intros ->. reflexivity. Qed.

Lemma render_ne c r : wf c -> exists h t, render c ++ r = h :: t.
Proof. intros H. destruct (render_head c H) as (h & t & -> & _). simpl. eauto. Qed.

Lemma elements_show json es r : Forall wf_item es -> follow r ->
  Forall2 (fun e x => shows x (i_val e)) es (map (fval json) (item_sufs es r)).
Proof.
  intros Hes Hr. pose proof (item_sufs_spec es r Hes Hr) as H.
  induction H as [|e x es l (r' & -> & Hf) H IH]; [constructor|].
  inversion Hes as [|e' es' He Hes']; subst. constructor; auto.
  destruct He. cbn [i_val] in *. apply fval_shows; auto.
Qed.
Lemma members_show json ms r : Forall wf_memb ms -> follow r ->
  Forall2 (fun m kv => shows (fst kv) (CStr (m_key m)) /\ shows (snd kv) (m_val m))
    ms (map (fun x => (fval json (fst x), fval json (snd x))) (memb_sufs ms r)).
Proof.
  intros Hms Hr. pose proof (memb_sufs_spec ms r Hms Hr) as H.
  induction H as [|m x ms l (r1 & r2 & E1 & Hk & E2 & Hv & Hf) H IH]; [constructor|].
  inversion Hms as [|m' ms' Hm Hms']; subst. constructor; auto. cbn [fst snd]. rewrite E1, E2. split.
  - rewrite fval_quoted by auto. apply tval_shows. constructor; auto.
  - apply fval_shows; auto.
Qed.

Lemma each_array v w es r : wf (CArr w es) -> v_kind v = KArray -> v_json v = render (CArr w es) ++ r ->
  exists vs, Forall2 (fun e x => shows x (i_val e)) es vs /\
    v_array v = Ok vs /\
    forall S (step : S -> value -> value -> R (S * bool)) st,
      v_each v step st = visit (fun st x => step st value_default x) st vs.
Proof.
  intros H Hk Hj. exists (map (fval (v_json v)) (items (tl (v_json v)))). repeat split.
  - rewrite Hj at 2. rewrite items_arr by auto. inversion H; subst. apply elements_show; auto.
    simpl. unfold follow_byte. auto.
  - rewrite v_array_spec, Hk. reflexivity.
  - intros S step st. rewrite v_each_spec, Hk.
    destruct (render_ne _ r H) as (h & t & E). rewrite (exists_json v h t) by congruence.
    apply visit_run.
Qed.
Lemma each_object v w ms r : wf (CObj w ms) -> v_kind v = KObject -> v_json v = render (CObj w ms) ++ r ->
  exists kvs, Forall2 (fun m kv => shows (fst kv) (CStr (m_key m)) /\ shows (snd kv) (m_val m)) ms kvs /\
    forall S (step : S -> value -> value -> R (S * bool)) st,
      v_each v step st = visit (fun st kv => step st (fst kv) (snd kv)) st kvs.
Proof.
  intros H Hk Hj. eexists. split; cycle 1.
  - intros S step st. rewrite v_each_spec, Hk.
    destruct (render_ne _ r H) as (h & t & E). rewrite (exists_json v h t) by congruence.
    cbn [negb]. rewrite Hj at 2. rewrite items_obj by auto. rewrite flat_pairs_map, pair_up_flat.
    apply visit_run.
  - inversion H; subst. apply members_show; auto. simpl. unfold follow_byte. auto.
Qed.
Lemma each_scalar v : v_exists v = true -> v_kind v <> KArray -> v_kind v <> KObject ->
  exists x, v_json x = v_json v /\ v_kind x = v_kind v /\ v_str x = v_str v /\
    forall S (step : S -> value -> value -> R (S * bool)) st,
      v_each v step st = visit (fun st x => step st value_default x) st [x].
Proof.
  intros He H1 H2. exists (json_clone_from_ref v). repeat split.
  intros S step st. rewrite v_each_spec, He.
  destruct (v_kind v); try reflexivity; congruence.
Qed.
Lemma array_other v : v_kind v <> KArray -> v_array v = Ok [].
Proof. intros H. rewrite v_array_spec. destruct (v_kind v); auto. congruence. Qed.

(* ---------- parse ---------- *)

Lemma dropw_sp w h t : ws w -> (32 < h)%N -> dropw above_sp (w ++ h :: t) = h :: t.
Proof.
  intros Hw Hh. rewrite dropw_app.
  - cbn [dropw]. unfold above_sp. replace (32 <? h)%N with true by lia. reflexivity.
  - revert Hw. apply Forall_impl. intros c H. unfold ws_byte in H. unfold above_sp. lia.
Qed.

Lemma lparse_doc w1 c w2 : ws w1 -> wf c -> follow w2 ->
  lparse (w1 ++ render c ++ w2) =
    mkslice (if is_container c then render c ++ w2 else render c)
      (if is_container c then N.lor (ginfo c) INFO_FOG else ginfo c)
      (Some (length w1)).
Proof.
  intros H1 Hc H2. unfold lparse.
  destruct (render_head c Hc) as (h & t & E & _ & _ & Hh).
  assert (Ed : dropw above_sp (w1 ++ render c ++ w2) = render c ++ w2).
  { rewrite E. cbn [app]. rewrite dropw_sp; auto. }
  rewrite Ed.
  assert (Ep : pos (w1 ++ render c ++ w2) (render c ++ w2) = length w1).
  { unfold pos. rewrite (app_length w1). lia. }
  rewrite Ep.
  rewrite fval_render, Ep by auto.
  destruct c as [ | | |n|b|w es|w ms]; try reflexivity.
  cbn [render] in E. subst n. cbn [render app is_container].
  assert (Hn : number (h :: t)) by (inversion Hc; auto). destruct (number_head _ Hn) as (h' & t' & Eh & Hh').
  injection Eh as <- <-. replace (h =? 123)%N with false by lia. replace (h =? 91)%N with false by lia. reflexivity.
Qed.

Lemma parse_doc w1 c w2 : ws w1 -> wf c -> ws w2 ->
  exists v, parse (w1 ++ render c ++ w2) = Ok v /\
    v_exists v = true /\ v_kind v = kind_of c /\
    v_json v = (if is_container c then render c ++ w2 else render c) /\
    (is_container c = false -> v_str v = text_of c).
Proof.
  intros H1 Hc H2. exists (lparse (w1 ++ render c ++ w2)). split; [apply parse_spec|].
  rewrite lparse_doc; auto. 2: { destruct H2; simpl; auto. left; auto. }
  destruct (render_head c Hc) as (h & t & E & _).
  destruct (is_container c) eqn:Ec.
  - split; [unfold v_exists; rewrite mkslice_json, E; reflexivity|]. split; [|split; [reflexivity | discriminate]].
    unfold v_kind. cbn [mkslice v_info]. rewrite land_lor_num. rewrite N.lor_0_r. apply kind_ginfo; auto.
  - pose proof (tval_shows c (Some (length w1)) Hc) as [Ha Hb Hc' Hd].
    repeat split; auto.
Qed.

Lemma array_elements v w es r : wf (CArr w es) -> v_kind v = KArray -> v_json v = render (CArr w es) ++ r ->
  exists vs, v_array v = Ok vs /\ Forall2 (fun e x => shows x (i_val e)) es vs.
Proof. intros H1 H2 H3. destruct (each_array v w es r H1 H2 H3) as (vs & H & E & _). eauto. Qed.

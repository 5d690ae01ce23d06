(** The whitespace of a document does not influence lookups: two texts with the
    same tokens are run side by side. *)
From Verif Require Import P_Base P_Json P_Valid P_ValidSpec P_Str P_Glob P_Scan P_Each P_Doc P_Path P_LGet P_Parts P_Ext P_Total P_Value
  P_Key P_Find P_GetDoc P_GetArr P_Stream P_Closed P_Reach P_Taken P_Tree P_PTree P_POut P_Mod P_ModDoc P_ModFlat P_ModJoin P_GetMod
  M_Util M_Num M_Scan M_Value M_Path M_Valid M_Get M_Pretty S_Json S_Str S_Tree S_Get S_Path S_Api S_Follow S_Taken S_Mod S_Query S_Join S_Alike.

Definition one (v : value) : Prop := v_slice v = [] \/ v_owned v = [].

(** Two well-formed documents with the same tokens. *)
Definition R2 (c c' : cst) : Prop := wf c /\ wf c' /\ erase c = erase c'.
Definition Ri (e e' : item cst) : Prop := wf_item e /\ wf_item e' /\ erase (i_val e) = erase (i_val e').
Definition Rm (m m' : memb cst) : Prop :=
  wf_memb m /\ wf_memb m' /\ m_key m = m_key m' /\ erase (m_val m) = erase (m_val m').

Lemma Ri_R2 e e' : Ri e e' -> R2 (i_val e) (i_val e').
Proof. intros (H1 & H2 & H3). repeat split; auto using wf_ival. Qed.
Lemma Rm_R2 e e' : Rm e e' -> R2 (m_val e) (m_val e').
Proof. intros (H1 & H2 & _ & H3). repeat split; auto using wf_mval. Qed.

Lemma R2_scalar c c' : R2 c c' -> is_container c = false -> c' = c.
Proof. intros (_ & _ & E) H. destruct c; try discriminate; destruct c'; cbn in E; congruence. Qed.
Lemma R2_container c c' : R2 c c' -> is_container c' = is_container c.
Proof. intros (_ & _ & E). destruct c, c'; cbn in E |- *; congruence. Qed.
Lemma R2_kind c c' : R2 c c' -> kind_of c' = kind_of c.
Proof. intros (_ & _ & E). destruct c, c'; cbn in E |- *; congruence. Qed.
Lemma R2_info c c' : R2 c c' -> ginfo c' = ginfo c.
Proof. intros (_ & _ & E). destruct c, c'; try discriminate E; try (injection E as ->); reflexivity. Qed.

Lemma R2_arr w es c' : R2 (CArr w es) c' -> exists w' es', c' = CArr w' es' /\ ws w /\ ws w' /\ Forall2 Ri es es'.
Proof.
  intros (H1 & H2 & E). destruct c' as [ | | |n|b|w' es'|w' ms']; try discriminate. exists w', es'.
  inversion H1 as [| | | | |? ? Hw Hes|]; inversion H2 as [| | | | |? ? Hw' Hes'|]; subst. split; auto. split; auto. split; auto. cbn in E. injection E as E.
  clear H1 H2 Hw Hw'.
  revert es' Hes' E. induction Hes as [|e es He Hes IH]; intros es' Hes' E; destruct es' as [|e' es']; try discriminate; constructor.
  - inversion Hes'; subst. cbn in E. destruct e, e'. injection E as E _. refine (conj _ (conj _ _)); auto.
  - inversion Hes'; subst. cbn in E. injection E as _ E. auto.
Qed.
Lemma R2_obj w ms c' : R2 (CObj w ms) c' -> exists w' ms', c' = CObj w' ms' /\ ws w /\ ws w' /\ Forall2 Rm ms ms'.
Proof.
  intros (H1 & H2 & E). destruct c' as [ | | |n|b|w' es'|w' ms']; try discriminate. exists w', ms'.
  inversion H1 as [| | | | | |? ? Hw Hes]; inversion H2 as [| | | | | |? ? Hw' Hes']; subst. split; auto. split; auto. split; auto. cbn in E. injection E as E.
  clear H1 H2 Hw Hw'.
  revert ms' Hes' E. induction Hes as [|e es He Hes IH]; intros es' Hes' E; destruct es' as [|e' es']; try discriminate; constructor.
  - inversion Hes'; subst. cbn in E. destruct e, e'. injection E as E1 E2 _. refine (conj _ (conj _ (conj _ _))); auto.
  - inversion Hes'; subst. cbn in E. injection E as _ E. auto.
Qed.
Lemma arr_R2 w w' es es' : ws w -> ws w' -> Forall2 Ri es es' -> R2 (CArr w es) (CArr w' es').
Proof.
  intros Hw Hw' H. split; [|split].
  - constructor; auto. induction H as [|e e' l l' (H1 & _) _ IH]; constructor; auto.
  - constructor; auto. induction H as [|e e' l l' (_ & H1 & _) _ IH]; constructor; auto.
  - cbn [erase]. f_equal. induction H as [|e e' l l' (_ & _ & H1) _ IH]; auto. cbn [map]. rewrite IH. f_equal. destruct e, e'. exact H1.
Qed.
Lemma obj_R2 w w' ms ms' : ws w -> ws w' -> Forall2 Rm ms ms' -> R2 (CObj w ms) (CObj w' ms').
Proof.
  intros Hw Hw' H. split; [|split].
  - constructor; auto. induction H as [|e e' l l' (H1 & _) _ IH]; constructor; auto.
  - constructor; auto. induction H as [|e e' l l' (_ & H1 & _) _ IH]; constructor; auto.
  - cbn [erase]. f_equal. induction H as [|e e' l l' (_ & _ & H1 & H2) _ IH]; auto. cbn [map]. rewrite IH. f_equal.
    destruct e, e'. cbn in H1, H2. congruence.
Qed.

(* ---------- values and texts ---------- *)

Definition tail_ok (c : cst) (w : bytes) : Prop := ws w /\ (is_container c = false -> w = []).
Definition Rv (v v' : value) : Prop :=
  one v /\ one v' /\ v_info v = v_info v' /\ v_uesc v = v_uesc v' /\
  ((v_json v = [] /\ v_json v' = []) \/
   exists c c' w w', R2 c c' /\ tail_ok c w /\ tail_ok c' w' /\ v_kind v = kind_of c /\
     v_json v = render c ++ w /\ v_json v' = render c' ++ w').
Definition Rj (j j' : bytes) : Prop :=
  (j = [] /\ j' = []) \/
  exists w1 c w2 w1' c' w2', R2 c c' /\ ws w1 /\ ws w2 /\ ws w1' /\ ws w2' /\ j = doc w1 c w2 /\ j' = doc w1' c' w2'.

Lemma Rv_default : Rv value_default value_default.
Proof. split; [left; auto|]. split; [left; auto|]. split; auto. Qed.
Lemma Rv_json v v' : Rv v v' -> Rj (v_json v) (v_json v').
Proof.
  intros (_ & _ & _ & _ & [H|(c & c' & w & w' & H & [Hw _] & [Hw' _] & _ & -> & ->)]); [left; auto|].
  right. exists [], c, w, [], c', w'. unfold doc. cbn [app]. repeat split; auto; try apply H; constructor.
Qed.
Lemma Rv_kind v v' : Rv v v' -> v_kind v = v_kind v'.
Proof. intros (_ & _ & H & _). unfold v_kind. rewrite H. reflexivity. Qed.
Lemma Rv_exists v v' : Rv v v' -> v_exists v = v_exists v'.
Proof.
  intros (_ & _ & _ & _ & [[H1 H2]|(c & c' & w & w' & (Hc & Hc' & _) & _ & _ & _ & H1 & H2)]); unfold v_exists; rewrite H1, H2; auto.
  destruct (render_head c Hc) as (h & t & -> & _). destruct (render_head c' Hc') as (h' & t' & -> & _). reflexivity.
Qed.
(** Nothing, or a scalar: equal in all respects. *)
Lemma Rv_cases v v' : Rv v v' -> veq v v' \/
  exists c c' w w', R2 c c' /\ is_container c = true /\ ws w /\ ws w' /\ v_kind v = kind_of c /\
     v_json v = render c ++ w /\ v_json v' = render c' ++ w'.
Proof.
  intros (_ & _ & H1 & H2 & [[H3 H4]|(c & c' & w & w' & H & [Hw Hw1] & [Hw' Hw1'] & Hk & H3 & H4)]).
  - left. split; [congruence|]. auto.
  - destruct (is_container c) eqn:Ec; [right; exists c, c', w, w'; tauto|].
    left. rewrite (R2_scalar _ _ H Ec) in H4, Hw1'. rewrite Hw1 in H3 by auto. rewrite Hw1' in H4 by auto. split; [congruence|]. auto.
Qed.
Lemma Rv_veq a b v v' : veq a v -> veq b v' -> one a -> one b -> Rv v v' -> Rv a b.
Proof.
  intros (A1 & A2 & A3) (B1 & B2 & B3) Ha Hb (_ & _ & H1 & H2 & H3). unfold Rv, v_kind in *. rewrite A1, A2, A3, B1, B2, B3.
  split; auto.
Qed.

Lemma tval_Rv c c' ix ix' : R2 c c' -> Rv (tval c ix) (tval c' ix').
Proof.
  intros H. split; [right; auto|]. split; [right; auto|]. split; [symmetry; apply R2_info, H|]. split.
  - destruct (is_container c) eqn:Ec; [|rewrite (R2_scalar _ _ H Ec); reflexivity].
    unfold tval. cbn [mkslice v_uesc]. rewrite (R2_info _ _ H). destruct c; try discriminate; reflexivity.
  - right. exists c, c', [], []. split; auto. split; [split; auto; constructor|]. split; [split; auto; constructor|].
    rewrite !app_nil_r. split; auto. apply (sh_kind _ _ (tval_shows c ix (proj1 H))).
Qed.

Lemma v_get_one v p r : v_get v p = Ok r -> one r.
Proof.
  unfold v_get, v_get_with. destruct (v_slice v).
  - intros H. apply bind_ok in H as (x & E & H). injection H as <-. apply bind_ok in E as (y & E & Ey). injection Ey as <-. left. reflexivity.
  - intros H. apply bind_ok in H as (x & E & H). injection H as <-. exact (get_one _ _ _ E).
Qed.

Definition Rg (t : bytes) : Prop := forall j j' v v', Rj j j' -> get j t = Ok v -> get j' t = Ok v' -> Rv v v'.

Lemma Rv_get t v v' r r' : Rg t -> Rv v v' -> v_get v t = Ok r -> v_get v' t = Ok r' -> Rv r r'.
Proof.
  intros Hg Hv E E'. pose proof Hv as (O & O' & _).
  pose proof (v_get_like v t O) as L. pose proof (v_get_like v' t O') as L'. rewrite E in L. rewrite E' in L'.
  destruct (get (v_json v) t) as [x|] eqn:Ex; [|destruct L]. destruct (get (v_json v') t) as [x'|] eqn:Ex'; [|destruct L'].
  eapply (Rv_veq _ _ x x'); eauto using v_get_one. eapply Hg; eauto using Rv_json.
Qed.

(* ---------- accessors ---------- *)

Lemma veq_f64 a b : veq a b -> v_f64 a = v_f64 b.
Proof. intros H. pose proof (veq_kind _ _ H) as Hk. destruct H as (H1 & H2 & H3). unfold v_f64, string_text. rewrite Hk, H1, H3. reflexivity. Qed.
Lemma veq_i64 a b : veq a b -> v_i64 a = v_i64 b.
Proof. intros H. pose proof (veq_kind _ _ H) as Hk. destruct H as (H1 & H2 & H3). unfold v_i64, string_text. rewrite Hk, H1, H3. reflexivity. Qed.
Lemma veq_u64 a b : veq a b -> v_u64 a = v_u64 b.
Proof. intros H. pose proof (veq_kind _ _ H) as Hk. destruct H as (H1 & H2 & H3). unfold v_u64, string_text. rewrite Hk, H1, H3. reflexivity. Qed.
Lemma veq_bool a b : veq a b -> v_bool a = v_bool b.
Proof. intros H. pose proof (veq_i64 _ _ H) as Hk. destruct H as (H1 & H2 & H3). unfold v_bool. rewrite Hk, H1. reflexivity. Qed.

Lemma container_bool v c w : wf c -> is_container c = true -> v_kind v = kind_of c -> v_json v = render c ++ w -> v_bool v = Ok false.
Proof.
  intros Hc Hco Hk Hj. unfold v_bool.
  assert (E : forall l, forallb (fun t => match t with [] => true | h :: _ => negb ((h =? 91) || (h =? 123))%N end) l = true -> ~ In [] l ->
    existsb (beq (v_json v)) l = false).
  { intros l Hl Hn. apply existsb_false_forall || idtac. induction l as [|t l IH]; auto. cbn [existsb forallb] in *. apply andb_true_iff in Hl as [Ht Hl].
    rewrite IH; auto; [|intros Hi; apply Hn; right; auto]. rewrite orb_false_r.
    destruct (beq (v_json v) t) eqn:Eb; auto. apply beq_eq in Eb. destruct t as [|h t]; [exfalso; apply Hn; left; auto|].
    rewrite Hj in Eb. destruct c; try discriminate; cbn [render app] in Eb; injection Eb as <- _; discriminate. }
  rewrite !E; try reflexivity.
  - unfold v_i64. rewrite Hk. destruct c; try discriminate; reflexivity.
  - cbn. intuition discriminate.
  - cbn. intuition discriminate.
Qed.

Lemma Rv_f64 v v' : Rv v v' -> v_f64 v = v_f64 v'.
Proof.
  intros H. pose proof (Rv_kind _ _ H) as Hk. destruct (Rv_cases _ _ H) as [E|(c & c' & w & w' & _ & Hc & _ & _ & Ek & _)]; [apply veq_f64, E|].
  unfold v_f64. rewrite <- Hk, Ek. destruct c; try discriminate; reflexivity.
Qed.
Lemma Rv_i64 v v' : Rv v v' -> v_i64 v = v_i64 v'.
Proof.
  intros H. pose proof (Rv_kind _ _ H) as Hk. destruct (Rv_cases _ _ H) as [E|(c & c' & w & w' & _ & Hc & _ & _ & Ek & _)]; [apply veq_i64, E|].
  unfold v_i64. rewrite <- Hk, Ek. destruct c; try discriminate; reflexivity.
Qed.
Lemma Rv_u64 v v' : Rv v v' -> v_u64 v = v_u64 v'.
Proof.
  intros H. pose proof (Rv_kind _ _ H) as Hk. destruct (Rv_cases _ _ H) as [E|(c & c' & w & w' & _ & Hc & _ & _ & Ek & _)]; [apply veq_u64, E|].
  unfold v_u64. rewrite <- Hk, Ek. destruct c; try discriminate; reflexivity.
Qed.
Lemma Rv_bool v v' : Rv v v' -> v_bool v = v_bool v'.
Proof.
  intros H. pose proof (Rv_kind _ _ H) as Hk.
  destruct (Rv_cases _ _ H) as [E|(c & c' & w & w' & HR & Hc & _ & _ & Ek & J & J')]; [apply veq_bool, E|].
  rewrite (container_bool v c w (proj1 HR) Hc Ek J). rewrite (container_bool v' c' w'); auto.
  - apply HR.
  - rewrite (R2_container _ _ HR). auto.
  - rewrite (R2_kind _ _ HR). congruence.
Qed.
Lemma Rv_str v v' : Rv v v' -> v_kind v <> KArray -> v_kind v <> KObject -> v_json v = v_json v' /\ v_str v = v_str v'.
Proof.
  intros H H1 H2. destruct (Rv_cases _ _ H) as [E|(c & c' & w & w' & HR & Hc & _ & _ & Ek & J & J')].
  - split; [apply E | apply veq_str, E].
  - destruct c; try discriminate; cbn in Ek; congruence.
Qed.

Lemma Rv_query v v' op rh : Rv v v' -> query_matches v op rh = query_matches v' op rh.
Proof.
  intros H. unfold query_matches. destruct (query_rhs rh) as [r|]; cbn [bind]; auto.
  assert (E : (if negb (v_exists v) then Ok false else match op with [] => Ok true | _ => query_compare v op r end) =
              (if negb (v_exists v') then Ok false else match op with [] => Ok true | _ => query_compare v' op r end)).
  { rewrite <- (Rv_exists _ _ H). destruct (v_exists v); auto. cbn [negb]. destruct op; auto. unfold query_compare.
    rewrite <- (Rv_kind _ _ H). destruct (v_kind v) eqn:Ek; auto.
    - unfold query_number. rewrite (Rv_f64 _ _ H). reflexivity.
    - unfold query_string. destruct (Rv_str _ _ H) as [_ ->]; auto; rewrite Ek; discriminate. }
  destruct r as [|a r]; [exact E|]. destruct (a =? cTILDE)%N; [|exact E]. rewrite (Rv_bool _ _ H). reflexivity.
Qed.

(* ---------- lists of results ---------- *)

Lemma find_r_rel f f' : forall xs xs' v v', Forall2 Rv xs xs' ->
  (forall x x' b b', Rv x x' -> f x = Ok b -> f' x' = Ok b' -> b = b') ->
  find_r f xs = Ok v -> find_r f' xs' = Ok v' -> Rv v v'.
Proof.
  intros xs xs' v v' H Hf. induction H as [|x x' xs xs' Hx _ IH]; cbn [find_r].
  - intros [= <-] [= <-]. apply Rv_default.
  - intros H H'. apply bind_ok in H as (b & E & H). apply bind_ok in H' as (b' & E' & H'). pose proof (Hf _ _ _ _ Hx E E') as <-.
    destruct b; [injection H as <-; injection H' as <-; auto | auto].
Qed.
Definition Ro (o o' : option value) : Prop := match o, o' with Some x, Some x' => Rv x x' | None, None => True | _, _ => False end.
Lemma push_all_rel f f' : forall xs xs' st st' r r', Forall2 Rv xs xs' ->
  (forall x x' o o', Rv x x' -> f x = Ok o -> f' x' = Ok o' -> Ro o o') ->
  push_all f xs st = Ok r -> push_all f' xs' st' = Ok r' ->
  exists ys ys', Forall2 Rv ys ys' /\ r = fold_left push_elem ys st /\ r' = fold_left push_elem ys' st'.
Proof.
  intros xs xs' st st' r r' H Hf. revert st st'. induction H as [|x x' xs xs' Hx _ IH]; intros st st'; cbn [push_all].
  - intros [= <-] [= <-]. exists [], []. split; [constructor | auto].
  - intros H H'. apply bind_ok in H as (o & E & H). apply bind_ok in H' as (o' & E' & H'). pose proof (Hf _ _ _ _ Hx E E') as Ho.
    destruct (IH _ _ H H') as (ys & ys' & F & -> & ->). destruct o as [y|], o' as [y'|]; [|destruct Ho|destruct Ho|].
    + exists (y :: ys), (y' :: ys'). split; [constructor; auto | auto].
    + exists ys, ys'. auto.
Qed.

Lemma owned_Rv c c' t t' info : t = render c -> t' = render c' -> R2 c c' -> is_container c = true ->
  kindmap (N.land info 255) = kind_of c -> has info (N.lor INFO_STRING INFO_ESC) = false ->
  Rv (mkowned t info None) (mkowned t' info None).
Proof.
  intros -> -> H Hc Hk Hi. assert (J : forall t, v_json (mkowned t info None) = t) by (intros []; reflexivity).
  split; [left; auto|]. split; [left; auto|]. split; auto. split.
  - cbn [mkowned v_uesc]. unfold esc_of. rewrite Hi. reflexivity.
  - right. exists c, c', [], []. rewrite !J, !app_nil_r. split; auto. split; [split; auto; constructor|]. split; [split; auto; constructor|].
    split; auto.
Qed.

Lemma Rv_pieces ys ys' : Forall2 Rv ys ys' -> exists l l',
  Forall2 (fun cw cw' => R2 (fst cw) (fst cw') /\ ws (snd cw) /\ ws (snd cw')) l l' /\
  map v_json (filter v_exists ys) = map rend l /\ map v_json (filter v_exists ys') = map rend l'.
Proof.
  induction 1 as [|y y' ys ys' Hy _ (l & l' & H1 & H2 & H3)]; [exists [], []; repeat split; constructor|]. cbn [filter].
  rewrite <- (Rv_exists _ _ Hy). destruct (v_exists y) eqn:Ey; [|eauto]. destruct Hy as (_ & _ & _ & _ & [[Hy _]|(c & c' & w & w' & HR & [Hw _] & [Hw' _] & _ & J & J')]).
  { unfold v_exists in Ey. rewrite Hy in Ey. discriminate. }
  exists ((c, w) :: l), ((c', w') :: l'). split; [constructor; auto|]. cbn [map]. rewrite H2, H3, J, J'. auto.
Qed.
Lemma Rv_array ys ys' : Forall2 Rv ys ys' ->
  Rv (mkowned (fst (fold_left push_elem ys ([91%N], 0)) ++ [93%N]) INFO_ARRAY None)
     (mkowned (fst (fold_left push_elem ys' ([91%N], 0)) ++ [93%N]) INFO_ARRAY None).
Proof.
  intros H. rewrite !push_list0. destruct (Rv_pieces _ _ H) as (l & l' & F & -> & ->). rewrite <- !render_mkarrw.
  apply (owned_Rv (mkarrw l) (mkarrw l')); auto. apply arr_R2; try constructor.
  clear H. induction F as [|[c w] [c' w'] l l' ((H1 & H2 & H3) & Hw & Hw') _ IH]; constructor; auto. cbn in *. repeat split; auto; constructor.
Qed.
Lemma Rv_object (ys ys' : list (bytes * value)) : Forall2 (fun kv kv' => fst kv = fst kv' /\ Rv (snd kv) (snd kv')) ys ys' ->
  Rv (mkowned (fst (fold_left push_memb ys ([123%N], 0)) ++ [125%N]) INFO_OBJECT None)
     (mkowned (fst (fold_left push_memb ys' ([123%N], 0)) ++ [125%N]) INFO_OBJECT None).
Proof.
  intros H. rewrite !push_membs0.
  assert (E : exists l l', Forall2 (fun kv kv' => fst kv = fst kv' /\ R2 (fst (snd kv)) (fst (snd kv')) /\ ws (snd (snd kv)) /\ ws (snd (snd kv'))) l l' /\
    map (fun kv => json_string (fst kv) ++ 58%N :: v_json (snd kv)) (filter (fun kv => v_exists (snd kv)) ys) =
    map (fun kv => json_string (fst kv) ++ 58%N :: rend (snd kv)) l /\
    map (fun kv => json_string (fst kv) ++ 58%N :: v_json (snd kv)) (filter (fun kv => v_exists (snd kv)) ys') =
    map (fun kv => json_string (fst kv) ++ 58%N :: rend (snd kv)) l').
  { induction H as [|[k y] [k' y'] ys ys' [Hk Hy] _ (l & l' & H1 & H2 & H3)]; [exists [], []; repeat split; constructor|]. cbn [filter snd fst] in *.
    subst k'. rewrite <- (Rv_exists _ _ Hy). destruct (v_exists y) eqn:Ey; [|eauto].
    destruct Hy as (_ & _ & _ & _ & [[Hy _]|(c & c' & w & w' & HR & [Hw _] & [Hw' _] & _ & J & J')]).
    { unfold v_exists in Ey. rewrite Hy in Ey. discriminate. }
    exists ((k, (c, w)) :: l), ((k, (c', w')) :: l'). split; [constructor; auto|]. cbn [map fst snd]. rewrite H2, H3, J, J'. auto. }
  destruct E as (l & l' & F & -> & ->). rewrite <- !render_mkobjw. apply (owned_Rv (mkobjw l) (mkobjw l')); auto. apply obj_R2; try constructor.
  clear H. induction F as [|[k [c w]] [k' [c' w']] l l' (Hk & (H1 & H2 & H3) & Hw & Hw') _ IH]; constructor; auto. cbn in *. subst k'.
  repeat split; auto using key_body_chars; constructor.
Qed.
Lemma Rv_count n : Rv (mkowned (dec_of_nat n) INFO_NUMBER None) (mkowned (dec_of_nat n) INFO_NUMBER None).
Proof.
  destruct (dec_of_nat_spec n) as [_ Hn]. assert (Hw : wf (CNum (dec_of_nat n))) by (constructor; auto).
  split; [left; auto|]. split; [left; auto|]. split; auto. split; auto. right.
  assert (J : forall t, v_json (mkowned t INFO_NUMBER None) = t) by (intros []; reflexivity).
  exists (CNum (dec_of_nat n)), (CNum (dec_of_nat n)), [], []. rewrite !J, !app_nil_r.
  split; [repeat split; auto|]. split; [split; auto; constructor|]. split; [split; auto; constructor|]. auto.
Qed.

(* ---------- arrays ---------- *)

Lemma elems_rel json json' c c' r r' : R2 c c' -> is_arr c = true ->
  Forall2 Rv (elems json false (render c ++ r)) (elems json' false (render c' ++ r')).
Proof.
  intros H Ha. destruct c as [ | | |n|b|w es|w ms]; try discriminate. pose proof H as (Hc & Hc' & _).
  destruct (R2_arr _ _ _ H) as (w' & es' & -> & _ & _ & F).
  pose proof (elems_tval json w es r Hc) as E. pose proof (elems_tval json' w' es' r' Hc') as E'.
  revert E E'. generalize (elems json false (render (CArr w es) ++ r)) (elems json' false (render (CArr w' es') ++ r')). clear - F.
  induction F as [|e e' es es' He _ IH]; intros l l' E E'; inversion E as [|? ? ? ? (ix & ->) E1]; inversion E' as [|? ? ? ? (ix' & ->) E1']; subst; constructor; auto.
  apply tval_Rv, Ri_R2, He.
Qed.

Lemma larr_rel text json json' lines l l' p v v' q q' : pin text p ->
  (forall t, length t < length text -> infix t text -> Rg t) ->
  Forall2 Rv (elems json lines l) (elems json' lines l') ->
  larr get json lines l p = Ok (v, q) -> larr get json' lines l' p = Ok (v', q') -> Rv v v' /\ q = q'.
Proof.
  intros Hpin Hg Hxs. unfold larr. cbv zeta. set (xs := elems json lines l) in *. set (xs' := elems json' lines l') in *.
  assert (Hidx : forall b : bool, Ok (if b then nth (Z.to_nat (comp_index (p_comp p))) xs value_default else value_default, p) = Ok (v, q) ->
    Ok (if b then nth (Z.to_nat (comp_index (p_comp p))) xs' value_default else value_default, p) = Ok (v', q') -> Rv v v' /\ q = q').
  { intros b H H'. injection H as <- <-. injection H' as <- <-. split; auto. destruct b; [|apply Rv_default].
    generalize (Z.to_nat (comp_index (p_comp p))). clear - Hxs. induction Hxs as [|x x' xs xs' Hx _ IH]; intros [|n]; cbn [nth]; auto using Rv_default. }
  destruct (p_comp p) as [|c t] eqn:Ec; [apply Hidx|].
  destruct (c =? 35)%N; [|apply Hidx].
  assert (Hgrp : forall gr rest, next_group p = Ok (gr, rest) -> (p_sep p =? 46)%N = true -> Rg gr).
  { intros gr rest. rewrite next_group_spec. intros H Es. rewrite Es in H.
    injection H as H. pose proof (pin_group _ _ _ _ Hpin Es H) as (_ & Hi & Hl). auto. }
  assert (Hq : forall lh op rh, query_parts (c :: t) = Ok (lh, op, rh) -> forall x x' b b', Rv x x' ->
      elem_matches get x lh op rh = Ok b -> elem_matches get x' lh op rh = Ok b' -> b = b').
  { intros lh op rh E x x' b b' Hx. destruct (query_parts_ok (c :: t)) as (lh' & op' & rh' & E' & Hi & _ & Hl).
    rewrite E' in E. injection E as -> -> ->. pose proof (pin_comp _ _ Hpin) as Hcc. rewrite Ec in Hcc.
    unfold elem_matches. destruct lh as [|a lh]; [rewrite (Rv_query _ _ _ _ Hx); congruence|].
    intros H H'. apply bind_ok in H as (y & Ey & H). apply bind_ok in H' as (y' & Ey' & H').
    assert (Hy : Rv y y').
    { eapply (Rv_get (a :: lh)); [|exact Hx|exact Ey|exact Ey']. apply Hg; [|eapply infix_trans; eauto]. destruct Hl as [Hl|Hl]; [discriminate|].
      apply infix_length in Hcc. lia. }
    rewrite (Rv_query _ _ _ _ Hy) in H. congruence. }
  destruct t as [|d t'].
  - destruct (p_sep p =? 46)%N.
    + intros H H'. apply bind_ok in H as ([gr rest] & E & H). apply bind_ok in H as (st & Est & H).
      rewrite E in H'. cbn [bind] in H'. apply bind_ok in H' as (st' & Est' & H').
      injection H as <- <-. injection H' as <- <-. split; auto.
      edestruct push_all_rel as (ys & ys' & F & -> & ->); [exact Hxs| |exact Est|exact Est'|apply Rv_array, F].
      cbv beta. intros x x' o o' Hx Ho Ho'. apply bind_ok in Ho as (z & Ez & Ho). apply bind_ok in Ho' as (z' & Ez' & Ho').
      injection Ho as <-. injection Ho' as <-. cbn [Ro]. eapply Rv_get; [|exact Hx|exact Ez|exact Ez']. eauto.
    + intros H H'. injection H as <- <-. injection H' as <- <-. split; auto.
      rewrite (F2_length _ _ _ Hxs). apply Rv_count.
  - destruct (last (d :: t') 0 =? 35)%N.
    + intros H H'. apply bind_ok in H as ([[lh op] rh] & Eq & H). apply bind_ok in H as ([gr rest] & E & H). apply bind_ok in H as (st & Est & H).
      rewrite Eq in H'. cbn [bind] in H'. rewrite E in H'. cbn [bind] in H'. apply bind_ok in H' as (st' & Est' & H').
      injection H as <- <-. injection H' as <- <-. split; auto.
      edestruct push_all_rel as (ys & ys' & F & -> & ->); [exact Hxs| |exact Est|exact Est'|apply Rv_array, F].
      cbv beta. intros x x' o o' Hx Ho Ho'. apply bind_ok in Ho as (b & Eb & Ho). apply bind_ok in Ho' as (b' & Eb' & Ho').
      pose proof (Hq _ _ _ Eq _ _ _ _ Hx Eb Eb') as <-. destruct b; [|injection Ho as <-; injection Ho' as <-; exact I].
      destruct (p_sep p =? 46)%N; [|injection Ho as <-; injection Ho' as <-; exact Hx].
      apply bind_ok in Ho as (z & Ez & Ho). apply bind_ok in Ho' as (z' & Ez' & Ho').
      injection Ho as <-. injection Ho' as <-. cbn [Ro]. eapply Rv_get; [|exact Hx|exact Ez|exact Ez']. eauto.
    + intros H H'. apply bind_ok in H as ([[lh op] rh] & Eq & H). apply bind_ok in H as (x & Ex & H).
      rewrite Eq in H'. cbn [bind] in H'. apply bind_ok in H' as (x' & Ex' & H').
      injection H as <- <-. injection H' as <- <-. split; auto. eapply (find_r_rel _ _ _ _ _ _ Hxs); [|exact Ex|exact Ex'].
      intros y y' b b' Hy. exact (Hq _ _ _ Eq _ _ _ _ Hy).
Qed.

(* ---------- objects ---------- *)

Inductive stream2 : bytes -> bytes -> Prop :=
| s2_nil : stream2 [] []
| s2_l c l l' : plain_skip c -> stream2 l l' -> stream2 (c :: l) l'
| s2_r c l l' : plain_skip c -> stream2 l l' -> stream2 l (c :: l')
| s2_brace l l' : stream2 (125%N :: l) (125%N :: l')
| s2_key k b c v r b' c' v' r' : chars k -> ws b -> ws c -> ws b' -> ws c' -> R2 v v' -> follow r -> follow r' -> stream2 r r' ->
    (is_container v = true -> stream2 (render v ++ r) (render v' ++ r')) ->
    stream2 (quoted k ++ b ++ 58%N :: c ++ render v ++ r) (quoted k ++ b' ++ 58%N :: c' ++ render v' ++ r')
| s2_str k b c r b' c' r' : chars k -> ws b -> ws b' -> c = 44%N \/ c = 93%N -> c' = 44%N \/ c' = 93%N ->
    stream2 (quoted k ++ b ++ c :: r) (quoted k ++ b' ++ c' :: r').

Lemma s2_ls a l l' : Forall plain_skip a -> stream2 l l' -> stream2 (a ++ l) l'.
Proof. intros H. induction H; auto. cbn [app]. intros. apply s2_l; auto. Qed.
Lemma s2_rs a l l' : Forall plain_skip a -> stream2 l l' -> stream2 l (a ++ l').
Proof. intros H. induction H; auto. cbn [app]. intros. apply s2_r; auto. Qed.
Lemma s2_ws a a' l l' : ws a -> ws a' -> stream2 l l' -> stream2 (a ++ l) (a' ++ l').
Proof. intros H H' Hl. apply s2_ls, s2_rs; auto using ws_plain_skip. Qed.
Lemma s2_skips a l l' : Forall plain_skip a -> stream2 l l' -> stream2 (a ++ l) (a ++ l').
Proof. intros H Hl. apply s2_ls, s2_rs; auto. Qed.

Lemma s2_render c : forall c', R2 c c' -> is_container c = true -> forall r r', stream2 r r' -> stream2 (render c ++ r) (render c' ++ r').
Proof.
  induction c as [ | | |n|b|w es IH|w ms IH] using cst_ind'; intros c' HR Hco r r' Hr; try discriminate.
  - destruct (R2_arr _ _ _ HR) as (w' & es' & -> & Hw & Hw' & F). cbn [render]. apps.
    apply (s2_skips [91%N]); [repeat constructor; discriminate|]. apply s2_ws; auto. clear HR Hco Hw Hw'.
    assert (Ht : stream2 (93%N :: r) (93%N :: r')) by (apply (s2_skips [93%N]); auto; repeat constructor; discriminate).
    induction F as [|e e' es es' He F IHes]; [exact Ht|].
    inversion IH as [|? ? IHe IHt]; subst. rewrite !commas_tail.
    assert (Htl : stream2 (arr_tail es (93%N :: r)) (arr_tail es' (93%N :: r'))).
    { specialize (IHes IHt). destruct F; [exact Ht|]. cbn [arr_tail]. apply (s2_skips [44%N]); [repeat constructor; discriminate|]. exact IHes. }
    pose proof (Ri_R2 _ _ He) as HR. destruct He as (He & He' & _).
    destruct He as [a v b Ha Hv Hb]. destruct He' as [a' v' b' Ha' Hv' Hb']. cbn [render_item i_val] in *. apps. apply s2_ws; auto.
    pose proof (s2_ws b b' _ _ Hb Hb' Htl) as Hbt.
    destruct (is_container v) eqn:Ev; [apply IHe; auto|]. pose proof (R2_scalar _ _ HR Ev) as ->.
    destruct v as [ | | |n|s|w1 es1|w1 ms1]; try discriminate.
    + apply (s2_skips t_null); auto. repeat constructor; discriminate.
    + apply (s2_skips t_true); auto. repeat constructor; discriminate.
    + apply (s2_skips t_false); auto. repeat constructor; discriminate.
    + inversion Hv; subst. apply (s2_skips n); auto. apply number_skip; auto.
    + inversion Hv; subst. cbn [render].
      assert (E : forall es r, exists c t, arr_tail es (93%N :: r) = c :: t /\ (c = 44%N \/ c = 93%N)) by (intros []; cbn [arr_tail]; eauto).
      destruct (E es r) as (c & t & -> & Hc). destruct (E es' r') as (c' & t' & -> & Hc'). apply s2_str; auto.
  - destruct (R2_obj _ _ _ HR) as (w' & ms' & -> & Hw & Hw' & F). cbn [render]. apps.
    apply (s2_skips [123%N]); [repeat constructor; discriminate|]. apply s2_ws; auto. clear HR Hco Hw Hw'.
    induction F as [|e e' ms ms' He F IHms]; [apply s2_brace|].
    inversion IH as [|? ? IHe IHt]; subst. rewrite !commas_tail_m.
    assert (Htl : stream2 (obj_tail ms (125%N :: r)) (obj_tail ms' (125%N :: r'))).
    { specialize (IHms IHt). destruct F; [apply s2_brace|]. cbn [obj_tail]. apply (s2_skips [44%N]); [repeat constructor; discriminate|]. exact IHms. }
    pose proof (Rm_R2 _ _ He) as HR. destruct He as (He & He' & Ek & _).
    destruct He as [a k b c v d Ha Hk Hb Hcc Hv Hd]. destruct He' as [a' k' b' c' v' d' Ha' Hk' Hb' Hcc' Hv' Hd'].
    cbn [render_memb m_val m_key] in *. subst k'. apps. apply s2_ws; auto.
    pose proof (s2_ws d d' _ _ Hd Hd' Htl) as Hdt.
    apply s2_key; auto; apply follow_ws; auto; apply obj_tail_follow; right; auto.
Qed.
Lemma s2_members w ms w' ms' r r' : R2 (CObj w ms) (CObj w' ms') -> 
  stream2 (commas (map (render_memb render) ms) ++ 125%N :: r) (commas (map (render_memb render) ms') ++ 125%N :: r').
Proof.
  intros H. destruct (R2_obj _ _ _ H) as (w1 & ms1 & E & _ & _ & F). injection E as <- <-. clear H.
  induction F as [|e e' ms ms' He F IHms]; [apply s2_brace|]. rewrite !commas_tail_m.
  assert (Htl : stream2 (obj_tail ms (125%N :: r)) (obj_tail ms' (125%N :: r'))).
  { destruct F; [apply s2_brace|]. cbn [obj_tail]. apply (s2_skips [44%N]); [repeat constructor; discriminate|]. exact IHms. }
  pose proof (Rm_R2 _ _ He) as HR. destruct He as (He & He' & Ek & _).
  destruct He as [a k b c v d Ha Hk Hb Hcc Hv Hd]. destruct He' as [a' k' b' c' v' d' Ha' Hk' Hb' Hcc' Hv' Hd'].
  cbn [render_memb m_val m_key] in *. subst k'. apps. apply s2_ws; auto.
  pose proof (s2_ws d d' _ _ Hd Hd' Htl) as Hdt.
  apply s2_key; auto; try (apply follow_ws; auto; apply obj_tail_follow; right; auto). intros. apply s2_render; auto.
Qed.

Definition Rd (d d' : ldescent) : Prop :=
  match d, d' with
  | LReturn v p, LReturn v' p' => Rv v v' /\ p = p'
  | LSquash, LSquash => True
  | LNone, LNone => True
  | _, _ => False
  end.

Lemma lloop_rel lsub lsub' json json' p :
  ((p_sep p =? 46)%N = true -> forall c c' r r' d d', R2 c c' -> is_container c = true -> suf (render c ++ r) json -> suf (render c' ++ r') json' ->
     lsub (render c ++ r) = Ok d -> lsub' (render c' ++ r') = Ok d' -> Rd d d') ->
  forall l l', stream2 l l' -> suf l json -> suf l' json' -> forall v q v' q',
  lloop lsub json l p = Ok (v, q) -> lloop lsub' json' l' p = Ok (v', q') -> Rv v v' /\ q = q'.
Proof.
  intros Hsub l l' H.
  induction H as [|c l l' [H1 H2] H IH|c l l' [H1 H2] H IH|l l'
    |k b c v0 r b' c' v0' r' Hk Hb Hc Hb' Hc' HR Hf Hf' Hr IHr Hco IHco|k b c r b' c' r' Hk Hb Hb' Hc Hc']; intros Hl Hl' v q v' q' E E'.
  - rewrite lloop_nil in E, E'. injection E as <- <-. injection E' as <- <-. auto using Rv_default.
  - rewrite lloop_skip in E by auto. apply IH; auto. eapply suf_tail; eauto.
  - rewrite lloop_skip in E' by auto. apply IH; auto. eapply suf_tail; eauto.
  - rewrite lloop_brace in E, E'. injection E as <- <-. injection E' as <- <-. auto using Rv_default.
  - assert (Hs : forall b c v r json, suf (quoted k ++ b ++ 58%N :: c ++ render v ++ r) json -> suf (render v ++ r) json /\ suf r json).
    { intros b0 c0 v1 r0 j Hj. assert (Hvr : suf (render v1 ++ r0) j).
      { eapply suf_trans; [|exact Hj]. rewrite !app_comm_cons, !app_assoc. rewrite <- (app_assoc _ (render v1) r0). apply suf_app. }
      split; auto. eapply suf_trans; [apply suf_app | exact Hvr]. }
    destruct (Hs _ _ _ _ _ Hl) as [Hvr Hrr]. destruct (Hs _ _ _ _ _ Hl') as [Hvr' Hrr']. clear Hs.
    pose proof HR as (Hv & Hv' & _).
    pose proof (lloop_memb lsub json p [] k b c v0 r ltac:(constructor) Hk Hb Hc Hv Hf) as Em. rewrite app_nil_l in Em. rewrite Em in E. clear Em.
    pose proof (lloop_memb lsub' json' p [] k b' c' v0' r' ltac:(constructor) Hk Hb' Hc' Hv' Hf') as Em. rewrite app_nil_l in Em. rewrite Em in E'. clear Em.
    cbv zeta in E, E'. rewrite fval_render in E, E' by auto. destruct (kmatch p k); [|eapply IHr; eauto].
    rewrite (R2_container _ _ HR) in E'.
    assert (Hflat : forall x x', Ok (tval v0 x, p) = Ok (v, q) -> Ok (tval v0' x', p) = Ok (v', q') -> Rv v v' /\ q = q').
    { intros x x' Hx Hx'. injection Hx as <- <-. injection Hx' as <- <-. auto using tval_Rv. }
    destruct ((p_sep p =? 46)%N && is_container v0) eqn:Ec; [|eauto].
    apply andb_true_iff in Ec as [Ep Ec]. apply bind_ok in E as (d & Ed & E). apply bind_ok in E' as (d' & Ed' & E').
    pose proof (Hsub Ep v0 v0' r r' d d' HR Ec Hvr Hvr' Ed Ed') as Hd. destruct d as [v1 p1| |], d' as [v1' p1'| |]; try (destruct Hd; fail).
    + injection E as <- <-. injection E' as <- <-. exact Hd.
    + eauto.
    + eapply IHco; eauto.
  - assert (D : forall lsub json b c r v q, ws b -> c = 44%N \/ c = 93%N -> lloop lsub json (quoted k ++ b ++ c :: r) p = Ok (v, q) -> v = value_default /\ q = p).
    { clear - Hk. intros lsub json b c r v q Hb Hc E.
      rewrite quoted_app_cons, lloop_str, chars_split in E by auto.
      assert (Ed : dropw colon_stop (b ++ c :: r) = c :: r).
      { rewrite dropw_app; [cbn [dropw]; destruct Hc as [-> | ->]; reflexivity|].
        eapply Forall_impl; [|exact Hb]. intros x Hx. unfold ws_byte in Hx. unfold colon_stop. lia. }
      rewrite Ed in E. cbv zeta in E.
      assert (Ec : container c = false) by (destruct Hc as [-> | ->]; reflexivity).
      assert (Ef : v_exists (fval json (c :: r)) = false) by (destruct Hc as [-> | ->]; reflexivity).
      assert (El : lrest (c :: r) = []) by (destruct Hc as [-> | ->]; reflexivity).
      rewrite Ec, Ef, El, !andb_false_r in E. injection E as <- <-. auto. }
    apply D in E as [-> ->]; auto. apply D in E' as [-> ->]; auto. auto using Rv_default.
Qed.

Lemma lobj_rel text json json' : (forall t, length t < length text -> infix t text -> Rg t) ->
  forall fuel c c' r r' p v q v' q', R2 c c' -> suf (render c ++ r) json -> suf (render c' ++ r') json' -> pin text p ->
  lobj fuel get json (render c ++ r) p = Ok (v, q) -> lobj fuel get json' (render c' ++ r') p = Ok (v', q') -> Rv v v' /\ q = q'.
Proof.
  intros Hg. induction fuel as [|fuel IH]; intros c c' r r' p v q v' q' HR Hs Hs' Hpin; [discriminate|].
  assert (Hd : Ok (value_default, p) = Ok (v, q) -> Ok (value_default, p) = Ok (v', q') -> Rv v v' /\ q = q').
  { intros H H'. injection H as <- <-. injection H' as <- <-. auto using Rv_default. }
  destruct (is_container c) eqn:Ec.
  2:{ pose proof (R2_scalar _ _ HR Ec) as ->. destruct HR as (Hc & _). destruct c as [ | | |n|b|w es|w ms]; try discriminate; try exact Hd.
      inversion Hc; subst. destruct (number_head n) as (h & t & -> & Hh); auto. cbn [render app lobj].
      replace (h =? 123)%N with false by lia. apply Hd. }
  destruct c as [ | | |n|b|w es|w ms]; try discriminate.
  { destruct (R2_arr _ _ _ HR) as (w' & es' & -> & _). exact Hd. }
  pose proof (R2_obj _ _ _ HR) as (w' & ms' & -> & Hw & Hw' & _). rewrite !lobj_render by auto. intros E E'.
  eapply lloop_rel; [| | | |exact E|exact E'].
  - intros Hdot c c' r0 r0' d d' HR' Hco Hsc Hsc' Els Els'. unfold lsub_of in Els, Els'. cbv zeta in Els, Els'.
    pose proof (pin_next _ _ Hpin) as Hq. destruct (_ || _); [injection Els as <-; injection Els' as <-; exact I|].
    apply bind_ok in Els as ([v1 p1] & E1 & Els). apply bind_ok in Els' as ([v1' p1'] & E1' & Els').
    assert (HR1 : Rv v1 v1' /\ p1 = p1').
    { destruct c as [ | | |n|b|w1 es|w1 ms1]; try discriminate.
      - pose proof (R2_arr _ _ _ HR') as (w1' & es' & -> & _).
        change (render (CArr w1 es) ++ r0) with (91%N :: (w1 ++ commas (map (render_item render) es) ++ [93%N]) ++ r0) in E1.
        change (render (CArr w1' es') ++ r0') with (91%N :: (w1' ++ commas (map (render_item render) es') ++ [93%N]) ++ r0') in E1'.
        cbn [N.eqb Pos.eqb] in E1, E1'. eapply larr_rel; [exact Hq | exact Hg | | exact E1 | exact E1'].
        exact (elems_rel json json' (CArr w1 es) (CArr w1' es') r0 r0' HR' eq_refl).
      - pose proof (R2_obj _ _ _ HR') as (w1' & ms1' & -> & _).
        change (render (CObj w1 ms1) ++ r0) with (123%N :: (w1 ++ commas (map (render_memb render) ms1) ++ [125%N]) ++ r0) in E1.
        change (render (CObj w1' ms1') ++ r0') with (123%N :: (w1' ++ commas (map (render_memb render) ms1') ++ [125%N]) ++ r0') in E1'.
        cbn [N.eqb Pos.eqb] in E1, E1'. eapply (IH (CObj w1 ms1) (CObj w1' ms1')); eauto. }
    destruct HR1 as [HR1 <-]. rewrite <- (Rv_exists _ _ HR1) in Els'. injection Els as <-. injection Els' as <-.
    destruct (v_exists v1); [split; auto | exact I].
  - eapply s2_members, HR.
  - eapply suf_trans; [|exact Hs]. cbn [render]. exists (123%N :: w). rewrite <- !app_comm_cons, <- !app_assoc. reflexivity.
  - eapply suf_trans; [|exact Hs']. cbn [render]. exists (123%N :: w'). rewrite <- !app_comm_cons, <- !app_assoc. reflexivity.
Qed.

(* ---------- multipaths ---------- *)

Lemma multi_arr_rel json json' : Rj json json' -> forall cs st st' r r', Forall (fun kp => Rg (snd kp)) cs ->
  multi_arr get json cs st = Ok r -> multi_arr get json' cs st' = Ok r' ->
  exists ys ys', Forall2 Rv ys ys' /\ r = fold_left push_elem ys st /\ r' = fold_left push_elem ys' st'.
Proof.
  intros Hj. induction cs as [|[k p] cs IH]; intros st st' r r' Hcs; cbn [multi_arr].
  - intros [= <-] [= <-]. exists [], []. split; [constructor | auto].
  - inversion Hcs as [|? ? H1 H2]; subst. intros H H'. apply bind_ok in H as (y & Ey & H). apply bind_ok in H' as (y' & Ey' & H').
    destruct (IH _ _ _ _ H2 H H') as (ys & ys' & F & -> & ->). exists (y :: ys), (y' :: ys'). split; [|auto].
    constructor; auto. eapply H1; eauto.
Qed.
Lemma multi_obj_rel json json' : Rj json json' -> forall cs st st' r r', Forall (fun kp => Rg (snd kp)) cs ->
  multi_obj get json cs st = Ok r -> multi_obj get json' cs st' = Ok r' ->
  exists ys ys', Forall2 (fun kv kv' : bytes * value => fst kv = fst kv' /\ Rv (snd kv) (snd kv')) ys ys' /\
    r = fold_left push_memb ys st /\ r' = fold_left push_memb ys' st'.
Proof.
  intros Hj. induction cs as [|[k p] cs IH]; intros st st' r r' Hcs; cbn [multi_obj].
  - intros [= <-] [= <-]. exists [], []. split; [constructor | auto].
  - inversion Hcs as [|? ? H1 H2]; subst. intros H H'. apply bind_ok in H as (y & Ey & H). apply bind_ok in H' as (y' & Ey' & H').
    destruct st as [o n]. destruct st' as [o' n'].
    destruct (IH _ _ _ _ H2 H H') as (ys & ys' & F & -> & ->). exists ((k, y) :: ys), ((k, y') :: ys'). split; [|auto].
    constructor; auto. split; auto. eapply H1; eauto.
Qed.

Lemma multi_exec_rel text json json' p v q v' q' : pin text p -> Rj json json' ->
  (forall t, length t < length text -> infix t text -> Rg t) ->
  multi_exec get json p = Ok (v, q) -> multi_exec get json' p = Ok (v', q') -> Rv v v' /\ q = q'.
Proof.
  intros Hpin Hj Hg H H'. unfold multi_exec in H, H'.
  assert (Hcs : forall cs, each_comp (p_comp p) = Ok cs -> Forall (fun kp => Rg (snd kp)) cs).
  { intros cs E. pose proof (each_comp_short _ _ E) as Hsh. eapply Forall_impl; [|exact Hsh]. intros kp [Hi Hl].
    pose proof (pin_comp _ _ Hpin) as Hcc. apply Hg; [apply infix_length in Hcc; lia | eapply infix_trans; eauto]. }
  apply bind_ok in H as (c & Ec & H). rewrite Ec in H'. cbn [bind] in H'.
  apply bind_ok in H as (l & El & H). rewrite El in H'. cbn [bind] in H'.
  apply bind_ok in H as (z & Ez & H). rewrite Ez in H'. cbn [bind] in H'.
  assert (Hd : Ok (value_default, path_default) = Ok (v, q) -> Ok (value_default, path_default) = Ok (v', q') -> Rv v v' /\ q = q').
  { intros E E'. injection E as <- <-. injection E' as <- <-. auto using Rv_default. }
  destruct (c =? cLBRK)%N.
  - destruct (negb (z =? cRBRK)%N); [auto|].
    apply bind_ok in H as (cs & Ecs & H). rewrite Ecs in H'. cbn [bind] in H'.
    apply bind_ok in H as ([o n] & Em & H). apply bind_ok in H' as ([o' n'] & Em' & H').
    rewrite json_from_owned_eq in H, H'. cbn [bind] in H, H'. injection H as <- <-. injection H' as <- <-. split; auto.
    destruct (multi_arr_rel _ _ Hj _ _ _ _ _ (Hcs _ Ecs) Em Em') as (ys & ys' & F & E & E').
    change ([cLBRK], 0) with ([91%N], 0) in E, E'. pose proof (Rv_array ys ys' F) as Hgd. rewrite <- E, <- E' in Hgd. exact Hgd.
  - destruct ((c =? cLBRC)%N && negb (z =? cRBRC)%N); [auto|].
    apply bind_ok in H as (cs & Ecs & H). rewrite Ecs in H'. cbn [bind] in H'.
    apply bind_ok in H as ([o n] & Em & H). apply bind_ok in H' as ([o' n'] & Em' & H').
    rewrite json_from_owned_eq in H, H'. cbn [bind] in H, H'. injection H as <- <-. injection H' as <- <-. split; auto.
    destruct (multi_obj_rel _ _ Hj _ _ _ _ _ (Hcs _ Ecs) Em Em') as (ys & ys' & F & E & E').
    change ([cLBRC], 0) with ([123%N], 0) in E, E'. pose proof (Rv_object ys ys' F) as Hgd. rewrite <- E, <- E' in Hgd. exact Hgd.
Qed.

(* ---------- modifiers ---------- *)

Lemma parse_rel o o' : Rj o o' -> Rv (lparse o) (lparse o').
Proof.
  intros [[-> ->]|(w1 & c & w2 & w1' & c' & w2' & HR & H1 & H2 & H1' & H2' & -> & ->)]; [apply Rv_default|].
  split; [apply lparse_one|]. split; [apply lparse_one|]. unfold doc. pose proof HR as (Hc & Hc' & _).
  assert (Hf : forall w, ws w -> follow w) by (intros w Hw; rewrite <- (app_nil_r w); apply follow_ws; auto; exact I).
  destruct (parse_presents w1 c w2 H1 Hc H2) as [P1 P2]. destruct (parse_presents w1' c' w2' H1' Hc' H2') as [_ P2'].
  rewrite P2, P2', (pr_kind _ _ P1). clear P1 P2 P2'. rewrite !lparse_doc by auto. rewrite (R2_container _ _ HR), (R2_info _ _ HR).
  split; auto. split.
  - destruct (is_container c) eqn:Ec; [|rewrite (R2_scalar _ _ HR Ec); reflexivity].
    cbn [mkslice v_uesc]. unfold esc_of. destruct c; try discriminate; reflexivity.
  - right. exists c, c', (if is_container c then w2 else []), (if is_container c then w2' else []). split; auto.
    split; [split; [|intros ->; auto]; destruct (is_container c); auto; constructor|].
    split; [split; [|intros Ei; rewrite <- (R2_container _ _ HR), Ei; auto]; destruct (is_container c); auto; constructor|].
    split; auto. destruct (is_container c); rewrite ?app_nil_r; auto.
Qed.

Lemma into_Rv v v' : Rv v v' -> Rv (json_into_owned v) (json_into_owned v').
Proof.
  intros H. pose proof H as (O & O' & _). eapply Rv_veq; [apply veq_into, O | apply veq_into, O' | left; auto | left; auto | exact H].
Qed.

Lemma render_Rj c c' : R2 c c' -> Rj (render c) (render c').
Proof.
  intros H. right. exists [], c, [], [], c', []. unfold doc. rewrite !app_nil_r. repeat split; auto; try apply H; constructor.
Qed.

Lemma Forall2_rev {A B} (P : A -> B -> Prop) l l' : Forall2 P l l' -> Forall2 P (rev l) (rev l').
Proof. induction 1; cbn [rev]; [constructor|]. apply Forall2_app; auto. Qed.

Lemma reversed_R2 c c' : R2 c c' -> R2 (reversed c) (reversed c').
Proof.
  intros H. destruct (is_container c) eqn:Ec; [|rewrite (R2_scalar _ _ H Ec); pose proof H as (Hc & _); destruct c; try discriminate; repeat split; auto].
  destruct c as [ | | |n|b|w es|w ms]; try discriminate.
  - destruct (R2_arr _ _ _ H) as (w' & es' & -> & _ & _ & F). cbn [reversed]. apply arr_R2; try constructor. apply Forall2_rev. clear H.
    induction F as [|e e' l l' (H1 & H2 & H3) _ IH]; constructor; auto. destruct H1, H2. cbn in *. repeat split; auto; constructor.
  - destruct (R2_obj _ _ _ H) as (w' & es' & -> & _ & _ & F). cbn [reversed]. apply obj_R2; try constructor. apply Forall2_rev. clear H.
    induction F as [|e e' l l' (H1 & H2 & H3 & H4) _ IH]; constructor; auto. destruct H1, H2. cbn in *. repeat split; auto; constructor.
Qed.

Lemma same_name_key a a' b b' : m_key a = m_key a' -> m_key b = m_key b' -> same_name a b -> same_name a' b'.
Proof. unfold same_name, named. intros -> ->. auto. Qed.
Lemma none_some m m' a a' : m_key m = m_key m' -> Forall2 (fun m m' => m_key m = m_key m') a a' ->
  Forall (fun x => ~ same_name x m) a -> Exists (fun x => same_name x m') a' -> False.
Proof.
  intros Hm F Hn Ho. revert Hn. induction F as [|x x' l l' Hx _ IH]; intros Hn; [inversion Ho|]. inversion Hn as [|? ? N1 N2]; subst.
  inversion Ho as [? ? O1|? ? O1]; subst; auto. apply N1. eapply same_name_key; [symmetry; exact Hx | symmetry; exact Hm | exact O1].
Qed.
Lemma none_some' m m' a a' : m_key m = m_key m' -> Forall2 (fun m m' => m_key m = m_key m') a a' ->
  Exists (fun x => same_name x m) a -> Forall (fun x => ~ same_name x m') a' -> False.
Proof.
  intros Hm F Ho Hn. revert Ho Hn. induction F as [|x x' l l' Hx _ IH]; intros Ho Hn; [inversion Ho|]. inversion Hn as [|? ? N1 N2]; subst.
  inversion Ho as [? ? O1|? ? O1]; subst; auto. apply N1. eapply same_name_key; [exact Hx | exact Hm | exact O1].
Qed.
Lemma firsts_rel ms fs : firsts ms fs -> forall ms' fs', Forall2 (fun m m' => m_key m = m_key m') ms ms' -> firsts ms' fs' ->
  Forall2 (fun m m' => m_key m = m_key m') fs fs'.
Proof.
  intros H. induction H as [|ms fs m H IH Hn|ms fs m H IH Ho]; intros ms' fs' F H'.
  - inversion F; subst. inversion H'; subst; auto; destruct ms; discriminate.
  - apply Forall2_app_inv_l in F as (a' & b' & Fa & Fb & ->). inversion Fb as [|? m' ? ? Hm F0]; subst. inversion F0; subst.
    inversion H' as [E|ms0 fs0 m0 H0 Hn0 E|ms0 fs0 m0 H0 Ho0 E]; [destruct a'; discriminate| |].
    + apply app_inj_tail in E as [-> ->]. apply Forall2_app; [eapply IH; eauto | repeat constructor; auto].
    + apply app_inj_tail in E as [-> ->]. exfalso. exact (none_some _ _ _ _ Hm Fa Hn Ho0).
  - apply Forall2_app_inv_l in F as (a' & b' & Fa & Fb & ->). inversion Fb as [|? m' ? ? Hm F0]; subst. inversion F0; subst.
    inversion H' as [E|ms0 fs0 m0 H0 Hn0 E|ms0 fs0 m0 H0 Ho0 E]; [destruct a'; discriminate| |].
    + apply app_inj_tail in E as [-> ->]. exfalso. exact (none_some' _ _ _ _ Hm Fa Ho Hn0).
    + apply app_inj_tail in E as [-> ->]. eauto.
Qed.
Lemma last_value_end ms x m v : last_value (ms ++ [x]) m v -> (same_name x m /\ v = m_val x) \/ (~ same_name x m /\ last_value ms m v).
Proof.
  intros (a & l & b & E & H1 & H2 & H3). destruct (app_last_case b) as [-> | (b0 & y & ->)].
  - apply app_inj_tail in E as [_ ->]. left. auto.
  - change (l :: b0 ++ [y]) with ((l :: b0) ++ [y]) in E. rewrite app_assoc in E. apply app_inj_tail in E as [-> ->]. right.
    apply Forall_app in H2 as [H2 H4]. inversion H4; subst. split; auto. exists a, l, b0. auto.
Qed.
Lemma last_value_rel m m' : m_key m = m_key m' -> forall ms ms' v v', Forall2 Rm ms ms' -> last_value ms m v -> last_value ms' m' v' -> R2 v v'.
Proof.
  intros Hk. induction ms as [|x ms IH] using rev_ind; intros ms' v v' F H H'.
  - destruct H as (a & l & b & E & _). destruct a; discriminate.
  - apply Forall2_app_inv_l in F as (a' & b' & Fa & Fb & ->). inversion Fb as [|? x' ? ? Hx F0]; subst. inversion F0; subst.
    pose proof Hx as (_ & _ & Hxk & _). apply last_value_end in H. apply last_value_end in H'.
    destruct H as [[H1 ->]|[H1 H]], H' as [[H1' ->]|[H1' H']].
    + apply Rm_R2, Hx.
    + exfalso. eauto using same_name_key.
    + exfalso. apply H1. eapply same_name_key; [symmetry; exact Hxk | symmetry; exact Hk | exact H1'].
    + eauto.
Qed.
Lemma all_members_rel es es' : Forall2 Ri es es' -> Forall2 Rm (all_members es) (all_members es').
Proof.
  induction 1 as [|e e' es es' H _ IH]; [constructor|]. unfold all_members in *. cbn [flat_map]. apply Forall2_app; auto.
  pose proof (Ri_R2 _ _ H) as HR. destruct (is_container (i_val e)) eqn:Ec.
  - destruct (i_val e) as [ | | |n|b|w es0|w ms]; try discriminate.
    + destruct (R2_arr _ _ _ HR) as (w' & es1 & -> & _). constructor.
    + destruct (R2_obj _ _ _ HR) as (w' & ms1 & -> & _ & _ & F). exact F.
  - rewrite (R2_scalar _ _ HR Ec). destruct (i_val e); try discriminate; constructor.
Qed.
Lemma merged_rel ms ms' out out' : Forall2 Rm ms ms' -> merged ms out -> merged ms' out' ->
  wf (CObj [] out) -> wf (CObj [] out') -> R2 (CObj [] out) (CObj [] out').
Proof.
  intros F (fs & Hf & H) (fs' & Hf' & H') Hw Hw'. apply obj_R2; try constructor.
  assert (Fk : Forall2 (fun m m' => m_key m = m_key m') ms ms').
  { clear - F. induction F as [|m m' l l' (_ & _ & E & _) _ IH]; constructor; auto. }
  pose proof (firsts_rel _ _ Hf _ _ Fk Hf') as G. clear Hf Hf' Fk.
  apply wf_membs in Hw. apply wf_membs in Hw'. revert out out' H H' Hw Hw'.
  induction G as [|m m' fs fs' E _ IH]; intros out out' H H' Hw Hw'; inversion H as [|? o ? ? (v & Hv & ->) H1]; inversion H' as [|? o' ? ? (v' & Hv' & ->) H1']; subst; [constructor|].
  inversion Hw; inversion Hw'; subst. constructor; auto. refine (conj _ (conj _ (conj _ _))); auto.
  cbn [m_val]. apply (last_value_rel m m' E _ _ _ _ F Hv Hv').
Qed.

Lemma is_arr_R2 c c' : R2 c c' -> is_arr c' = is_arr c.
Proof. intros (_ & _ & E). destruct c, c'; cbn in E |- *; congruence. Qed.

Lemma doc_Rj w1 c w2 w1' c' w2' : R2 c c' -> ws w1 -> ws w2 -> ws w1' -> ws w2' -> Rj (w1 ++ render c ++ w2) (w1' ++ render c' ++ w2').
Proof. intros. right. exists w1, c, w2, w1', c', w2'. auto 9. Qed.

Lemma join_rel json json' o o' : Rj json json' -> mod_join get json [] = Ok o -> mod_join get json' [] = Ok o' -> Rj o o'.
Proof.
  intros [[-> ->]|(w1 & c & w2 & w1' & c' & w2' & HR & H1 & H2 & H1' & H2' & -> & ->)].
  - intros [= <-] [= <-]. left. auto.
  - unfold doc. pose proof HR as (Hc & Hc' & _). destruct (is_arr c) eqn:Ea.
    + destruct c as [ | | |n|b|w es|w ms]; try discriminate. destruct (R2_arr _ _ _ HR) as (w' & es' & -> & _ & _ & F).
      destruct (join_doc get [] value_default w1 w es w2) as (out & -> & M & Ho); auto.
      destruct (join_doc get [] value_default w1' w' es' w2') as (out' & -> & M' & Ho'); auto.
      intros Eq Eq'. apply Ok_inj in Eq, Eq'. subst o o'. apply render_Rj. apply (merged_rel (all_members es) (all_members es')); auto using all_members_rel.
    + pose proof (is_arr_R2 _ _ HR) as Ea'. rewrite Ea in Ea'. unfold mod_join.
      destruct (parse_presents w1 _ w2 H1 Hc H2) as [P1 P2]. destruct (parse_presents w1' _ w2' H1' Hc' H2') as [P1' P2'].
      rewrite !parse_spec. cbn [bind]. rewrite (pr_kind _ _ P1), (pr_kind _ _ P1'), !kind_arr, Ea, Ea'. cbn [negb].
      intros Eq Eq'. apply Ok_inj in Eq, Eq'. subst o o'. apply doc_Rj; auto.
Qed.

Lemma apply_rel name arg json json' o o' : allowed false name arg -> Rj json json' ->
  mod_apply get name json arg = Ok o -> mod_apply get name json' arg = Ok o' -> Rj o o'.
Proof.
  intros (A1 & A2 & A3) HJ. unfold mod_apply.
  assert (Hn : (json = [] /\ json' = []) \/ exists w1 c w2 w1' c' w2', R2 c c' /\ ws w1 /\ ws w2 /\ ws w1' /\ ws w2' /\
     json = w1 ++ render c ++ w2 /\ json' = w1' ++ render c' ++ w2') by exact HJ.
  destruct (beq name n_this); [intros [= <-] [= <-]; exact HJ|].
  destruct (beq name n_reverse).
  { destruct Hn as [[-> ->]|(w1 & c & w2 & w1' & c' & w2' & HR & H1 & H2 & H1' & H2' & -> & ->)]; [intros [= <-] [= <-]; left; auto|].
    rewrite !reverse_doc by (auto; apply HR). intros Eq Eq'. apply Ok_inj in Eq, Eq'. subst o o'. apply render_Rj, reversed_R2, HR. }
  destruct (beq name n_ugly).
  { destruct Hn as [[-> ->]|(w1 & c & w2 & w1' & c' & w2' & HR & H1 & H2 & H1' & H2' & -> & ->)]; [intros [= <-] [= <-]; left; auto|].
    pose proof HR as (Hc & Hc' & E).
    destruct (ugly_reads (w1 ++ render c ++ w2) (erase c)) as [-> _]; [exists w1, c, w2; auto|].
    destruct (ugly_reads (w1' ++ render c' ++ w2') (erase c')) as [-> _]; [exists w1', c', w2'; auto|].
    intros Eq Eq'. apply Ok_inj in Eq, Eq'. subst o o'. rewrite <- !render_embed. apply wf_erase in Hc, Hc'. apply render_Rj.
    split; [apply wf_embed, Hc|]. split; [apply wf_embed, Hc'|]. rewrite E. reflexivity. }
  destruct (beq name n_pretty) eqn:Ep.
  { apply beq_eq in Ep. rewrite (A1 Ep). cbn [mod_pretty].
    destruct Hn as [[-> ->]|(w1 & c & w2 & w1' & c' & w2' & HR & H1 & H2 & H1' & H2' & -> & ->)]; [intros [= <-] [= <-]; left; auto|].
    pose proof HR as (Hc & Hc' & E).
    unfold pretty. destruct (pretty_out c w1 w2 popts_default) as (d & Hd & Ed & _ & Eo); auto; [constructor | repeat (constructor; unfold ws_byte; auto)|].
    destruct (pretty_out c' w1' w2' popts_default) as (d' & Hd' & Ed' & _ & Eo'); auto; [constructor | repeat (constructor; unfold ws_byte; auto)|].
    rewrite Eo, Eo'. intros Eq Eq'. apply Ok_inj in Eq, Eq'. subst o o'. cbn [popts_default o_prefix app].
    apply (doc_Rj [] d [10%N] [] d' [10%N]); [|constructor|apply ws_cons_lf; constructor|constructor|apply ws_cons_lf; constructor].
    refine (conj Hd (conj Hd' _)). cbn [popts_default o_sort] in Ed, Ed'. congruence. }
  destruct (beq name n_valid).
  { unfold mod_valid. destruct Hn as [[-> ->]|(w1 & c & w2 & w1' & c' & w2' & HR & H1 & H2 & H1' & H2' & -> & ->)]; [intros [= <-] [= <-]; left; auto|].
    pose proof HR as (Hc & Hc' & E).
    assert (V1 : valid (w1 ++ render c ++ w2) = Ok true) by (apply valid_true_iff, json_text_cst; exists w1, c, w2; auto).
    assert (V2 : valid (w1' ++ render c' ++ w2') = Ok true) by (apply valid_true_iff, json_text_cst; exists w1', c', w2'; auto).
    rewrite V1, V2. cbn [bind]. intros Eq Eq'. apply Ok_inj in Eq, Eq'. subst o o'. apply doc_Rj; auto. }
  destruct (beq name n_flatten) eqn:Ef; [apply beq_eq in Ef; specialize (A3 Ef); discriminate|].
  destruct (beq name n_join) eqn:Ej; [rewrite (A2 (proj1 (beq_eq _ _) Ej)); apply join_rel; auto|].
  intros [= <-] [= <-]. left. auto.
Qed.

Lemma tame_allowed t fl name arg : tamef fl t -> (p_comp (pnext t) = 64%N :: name /\ arg = []) \/ p_comp (pnext t) = 64%N :: name ++ 58%N :: arg ->
  allowed fl name arg.
Proof.
  intros Ht Hp. pose proof (pin_pnext t) as [I1 _ _]. pose proof (tame_infix _ _ _ I1 Ht) as (T1 & T2 & T3). clear I1.
  assert (Hn : forall n, name = n -> ~ infix (64%N :: n ++ [58%N]) (p_comp (pnext t)) -> arg = []).
  { intros n -> Hi. destruct Hp as [[_ ->]|E]; auto. exfalso. apply Hi. rewrite E. exists [], arg. cbn [app]. rewrite <- app_assoc. reflexivity. }
  split; [|split]; eauto. intros ->. destruct T3 as [|T3]; auto. exfalso. apply T3. destruct Hp as [[-> _]| ->].
  - exists [], []. rewrite app_nil_r. reflexivity.
  - exists [], (58%N :: arg). reflexivity.
Qed.

Lemma mod_rel t json json' v q v' q' : tamef false t -> is_modifier (pnext t) = true -> Rj json json' ->
  mod_exec get json (pnext t) = Ok (v, q) -> mod_exec get json' (pnext t) = Ok (v', q') -> Rv v v' /\ q = q'.
Proof.
  intros Ht Hm HJ.
  destruct (mod_exec_parts get _ _ (pnext_shape t) Hm) as (name & arg & Hp & E). rewrite !E.
  intros H H'. apply bind_ok in H as (o & Eo & H). apply bind_ok in H' as (o' & Eo' & H').
  rewrite parse_spec in H, H'. cbn [bind] in H, H'. injection H as <- <-. injection H' as <- <-. split; auto.
  apply into_Rv, parse_rel. eapply apply_rel; eauto using tame_allowed.
Qed.

(* ---------- get ---------- *)

Theorem get_rel : forall n text, length text <= n -> tamef false text -> Rg text.
Proof.
  induction n as [n IH] using lt_wf_ind. intros text Hn HP json json' v v' HJ. rewrite !get_spec.
  destruct (split_lines text) as [lines t] eqn:El. apply split_lines_infix in El. cbv zeta.
  pose proof (tame_infix _ _ _ El HP) as Ht.
  pose proof (pin_pnext t) as Hpin. pose proof (infix_length _ _ El) as Hlen.
  assert (Hg : forall t', length t' < length t -> infix t' t -> Rg t').
  { intros t' Ht' Hi. apply (IH (length t')); auto; [lia|]. eapply tame_infix; eauto. }
  intros H H'. apply bind_ok in H as ([v0 p] & E & H). apply bind_ok in H' as ([v0' p'] & E' & H').
  pose proof (lget_first_pin _ _ _ _ _ _ _ Hpin E) as Hpin'.
  assert (Hv : Rv v0 v0' /\ p = p').
  { unfold lget_first in E, E'. destruct lines.
    - eapply larr_rel; [exact Hpin | exact Hg | | exact E | exact E'].
      destruct HJ as [[-> ->]|(w1 & c & w2 & w1' & c' & w2' & HR & H1 & H2 & H1' & H2' & -> & ->)]; [constructor|].
      rewrite !elems_lines by (auto; apply HR). constructor; [apply tval_Rv; auto | constructor].
    - destruct (is_modifier (pnext t)) eqn:Emd; [exact (mod_rel t json json' _ _ _ _ Ht Emd HJ E E')|].
      destruct (is_multipath (pnext t)) eqn:Emp; [exact (multi_exec_rel t json json' _ _ _ _ _ Hpin HJ Hg E E')|].
      assert (Hd : Ok (value_default, pnext t) = Ok (v0, p) -> Ok (value_default, pnext t) = Ok (v0', p') -> Rv v0 v0' /\ p = p').
      { intros F F'. injection F as <- <-. injection F' as <- <-. auto using Rv_default. }
      destruct HJ as [[-> ->]|(w1 & c & w2 & w1' & c' & w2' & HR & H1 & H2 & H1' & H2' & -> & ->)]; [apply Hd; [exact E | exact E']|].
      pose proof HR as (Hc & Hc' & _). destruct (is_container c) eqn:Ec.
      2:{ rewrite lstart_scalar in E, E' by (auto; rewrite (R2_container _ _ HR); auto). auto. }
      destruct c as [ | | |k|b|w es|w ms]; try discriminate.
      + pose proof (R2_arr _ _ _ HR) as (w' & es' & -> & _). rewrite lstart_arr in E, E' by auto.
        eapply larr_rel; [exact Hpin | exact Hg | | exact E | exact E']. apply elems_rel; auto.
      + pose proof (R2_obj _ _ _ HR) as (w' & ms' & -> & _). rewrite lstart_obj in E, E' by auto.
        eapply lobj_rel; [exact Hg | exact HR | apply suf_doc | apply suf_doc | exact Hpin | exact E | exact E']. }
  destruct Hv as [Hv <-]. destruct (p_more p) eqn:Em; cbn [negb] in H, H'; [|injection H as <-; injection H' as <-; exact Hv].
  eapply Rv_get; [|exact Hv | exact H | exact H']. apply Hg; [apply (pin_short _ _ Hpin' Em) | apply (pin_extra _ _ Hpin')].
Qed.

(* ---------- each and array ---------- *)

Lemma array_rel v v' l l' : Rv v v' -> v_array v = Ok l -> v_array v' = Ok l' -> Forall2 Rv l l'.
Proof.
  intros H. rewrite !v_array_spec, <- (Rv_kind _ _ H). intros [= <-] [= <-]. destruct (v_kind v) eqn:Ek; try constructor.
  destruct H as (_ & _ & _ & _ & [[H1 H2]|(c & c' & w & w' & HR & _ & _ & Hk & -> & ->)]); [rewrite H1, H2; constructor|].
  rewrite Ek in Hk. destruct c; try discriminate. exact (elems_rel _ _ _ _ w w' HR eq_refl).
Qed.

Definition Rkv (kv kv' : value * value) : Prop := Rv (fst kv) (fst kv') /\ Rv (snd kv) (snd kv').
Lemma members_rel json json' ms ms' r r' : Forall2 Rm ms ms' -> follow r -> follow r' ->
  Forall2 Rkv (map (fun x => (fval json (fst x), fval json (snd x))) (memb_sufs ms r))
              (map (fun x => (fval json' (fst x), fval json' (snd x))) (memb_sufs ms' r')).
Proof.
  intros F Hr Hr'.
  assert (W : Forall wf_memb ms /\ Forall wf_memb ms').
  { clear - F. induction F as [|m m' l l' (H1 & H2 & _) _ [I1 I2]]; auto. }
  destruct W as [W W']. pose proof (memb_sufs_spec ms r W Hr) as H. pose proof (memb_sufs_spec ms' r' W' Hr') as H'. clear W W'.
  revert H H'. generalize (memb_sufs ms r) (memb_sufs ms' r').
  induction F as [|m m' ms ms' Hm _ IH]; intros l l' H H'; inversion H as [|? x ? ? (r1 & r2 & E1 & Hk & E2 & Hv & Hf) H1];
    inversion H' as [|? x' ? ? (r1' & r2' & E1' & Hk' & E2' & Hv' & Hf') H1']; subst; [constructor|].
  cbn [map]. constructor; auto. pose proof (Rm_R2 _ _ Hm) as HR. destruct Hm as (_ & _ & Ek & _). split; cbn [fst snd].
  - rewrite E1, E1', !fval_quoted by auto. rewrite <- Ek. apply tval_Rv. repeat split; constructor; auto.
  - rewrite E2, E2', !fval_render by auto. apply tval_Rv, HR.
Qed.

Lemma each_rel v v' l l' : Rv v v' -> v_each v record_args [] = Ok l -> v_each v' record_args [] = Ok l' -> Forall2 Rkv l l'.
Proof.
  intros H. rewrite !v_each_spec, <- (Rv_kind _ _ H), <- (Rv_exists _ _ H). destruct (v_exists v) eqn:Ex; cbn [negb]; [|intros [= <-] [= <-]; constructor].
  assert (Hc : Rv (json_clone_from_ref v) (json_clone_from_ref v')).
  { pose proof H as (O & O' & _). eapply (Rv_veq _ _ v v'); auto; try (right; reflexivity); repeat split. }
  assert (Hs : forall A (f : A -> value * value) xs xs', Forall2 Rkv (map f xs) (map f xs') ->
    run (fun st x => record_args st (fst (f x)) (snd (f x))) [] xs = Ok l ->
    run (fun st x => record_args st (fst (f x)) (snd (f x))) [] xs' = Ok l' -> Forall2 Rkv l l').
  { intros A f xs xs' F. rewrite !visit_run, !visit_record, !app_nil_r. intros [= <-] [= <-]. apply Forall2_rev, F. }
  destruct (v_kind v) eqn:Ek;
    try (apply (Hs _ (fun x => (value_default, x)) [json_clone_from_ref v] [json_clone_from_ref v']);
         constructor; [split; [apply Rv_default | exact Hc] | constructor]).
  - pose proof H as (_ & _ & _ & _ & [[H1 H2]|(c & c' & w & w' & HR & _ & _ & Hk & J & J')]); [unfold v_exists in Ex; rewrite H1 in Ex; discriminate|].
    apply (Hs _ (fun x => (value_default, x)) (map (fval (v_json v)) (items (tl (v_json v)))) (map (fval (v_json v')) (items (tl (v_json v'))))). rewrite J, J'. rewrite Ek in Hk. destruct c; try discriminate.
    pose proof (elems_rel (render (CArr w0 es) ++ w) (render c' ++ w') _ _ w w' HR eq_refl) as F. unfold elems, fe_items in F.
    revert F. generalize (map (fval (render (CArr w0 es) ++ w)) (items (tl (render (CArr w0 es) ++ w))))
      (map (fval (render c' ++ w')) (items (tl (render c' ++ w')))). clear.
    induction 1; constructor; auto. split; auto. apply Rv_default.
  - pose proof H as (_ & _ & _ & _ & [[H1 H2]|(c & c' & w & w' & HR & _ & _ & Hk & J & J')]); [unfold v_exists in Ex; rewrite H1 in Ex; discriminate|].
    apply (Hs _ (fun x => x) (pair_up (map (fval (v_json v)) (items (tl (v_json v))))) (pair_up (map (fval (v_json v')) (items (tl (v_json v')))))). rewrite !map_id, J, J'. rewrite Ek in Hk. destruct c; try discriminate.
    pose proof (R2_obj _ _ _ HR) as (w1 & ms' & -> & _ & _ & F). pose proof HR as (Hc1 & Hc2 & _).
    rewrite !items_obj by auto. rewrite !flat_pairs_map, !pair_up_flat. apply members_rel; auto; simpl; unfold follow_byte; auto.
Qed.

Lemma nth_rel {A B} (P : A -> B -> Prop) l l' n x x' : Forall2 P l l' -> nth_error l n = Some x -> nth_error l' n = Some x' -> P x x'.
Proof.
  intros H. revert n. induction H as [|a b l l' Ha _ IH]; intros [|n] E E'; try discriminate; cbn in E, E'; [congruence | eauto].
Qed.

Lemma get_Rg p : tame p -> Rg p.
Proof. intros H. apply (get_rel (length p)); auto. apply tame_tamef, H. Qed.

Lemma reads_Rj s s' t : reads s t -> reads s' t -> Rj s s'.
Proof.
  intros (w1 & c & w2 & H1 & H2 & H3 & -> & <-) (w1' & c' & w2' & H1' & H2' & H3' & -> & E). apply doc_Rj; auto. repeat split; auto.
Qed.

Lemma taken2_rel s s' t v v' : reads s t -> reads s' t -> taken2 s s' v v' -> Rv v v'.
Proof.
  intros Hs Hs'. pose proof (reads_Rj _ _ _ Hs Hs') as HJ.
  induction 1 as [v v' E E'|p v v' Hp E E'|u u' p v v' _ IH Hp E E'|u u' l l' n k x k' x' _ IH E E' Hn Hn'|u u' l l' n k x k' x' _ IH E E' Hn Hn'
    |u u' l l' n x x' _ IH E E' Hn Hn'].
  - rewrite parse_spec in E, E'. injection E as <-. injection E' as <-. apply parse_rel, HJ.
  - exact (get_Rg p Hp _ _ _ _ HJ E E').
  - exact (Rv_get p _ _ _ _ (get_Rg p Hp) IH E E').
  - exact (proj1 (nth_rel Rkv _ _ _ _ _ (each_rel _ _ _ _ IH E E') Hn Hn')).
  - exact (proj2 (nth_rel Rkv _ _ _ _ _ (each_rel _ _ _ _ IH E E') Hn Hn')).
  - exact (nth_rel Rv _ _ _ _ _ (array_rel _ _ _ _ IH E E') Hn Hn').
Qed.

Lemma Rv_same v v' : Rv v v' -> same v v'.
Proof.
  intros H. pose proof (Rv_f64 _ _ H) as F. pose proof (Rv_i64 _ _ H) as I. pose proof (Rv_u64 _ _ H) as U.
  constructor; auto using Rv_exists, Rv_kind, Rv_bool, Rv_str; try (unfold v_f32, v_i32, v_i16, v_i8, v_u32, v_u16, v_u8; rewrite ?F, ?I, ?U; reflexivity).
  - intros Ha. pose proof (Rv_exists _ _ H) as Hb. rewrite Ha in Hb. unfold v_exists in *. destruct (v_json v), (v_json v'); try discriminate; auto.
  - intros Ha. destruct H as (_ & _ & _ & _ & [[H1 H2]|(c & c' & w & w' & (H1 & H2 & H3) & [Hw _] & [Hw' _] & _ & -> & ->)]).
    + unfold v_exists in Ha. rewrite H1 in Ha. discriminate.
    + exists (erase c). split; [exists [], c, w | exists [], c', w']; repeat split; auto; constructor.
  - intros l l' E E'. exact (F2_length _ _ _ (array_rel _ _ _ _ H E E')).
  - intros l l' E E'. exact (F2_length _ _ _ (each_rel _ _ _ _ H E E')).
Qed.

Lemma taken2_same s s' t v v' : reads s t -> reads s' t -> taken2 s s' v v' -> same v v'.
Proof. intros H H' T. exact (Rv_same _ _ (taken2_rel s s' t v v' H H' T)). Qed.

(** For [get] itself: both calls return. *)
Lemma get_same s s' t p : reads s t -> reads s' t -> tame p -> exists v v', get s p = Ok v /\ get s' p = Ok v' /\ same v v'.
Proof.
  intros H H' Hp. pose proof (tame_tamef _ Hp) as Ht.
  destruct (get_total s p (tame_safe _ _ Ht)) as [v E]. destruct (get_total s' p (tame_safe _ _ Ht)) as [v' E'].
  exists v, v'. split; auto. split; auto. exact (taken2_same s s' t v v' H H' (t2_get s s' p v v' Hp E E')).
Qed.
Lemma get_same_ugly s u p : valid s = Ok true -> ugly s = Ok u -> tame p -> exists v v', get s p = Ok v /\ get u p = Ok v' /\ same v v'.
Proof.
  intros Hv Eu Hp. apply P_Taken.valid_doc in Hv as (w1 & c & w2 & -> & H1 & Hc & H2).
  assert (Hr : reads (doc w1 c w2) (erase c)) by (exists w1, c, w2; auto). destruct (ugly_reads _ _ Hr) as [E Hu]. rewrite E in Eu.
  apply Ok_inj in Eu. subst u. exact (get_same _ _ (erase c) p Hr Hu Hp).
Qed.

(** Deciding [contains] for concrete paths. *)
Fixpoint prefixb (s t : list N) : bool :=
  match s, t with
  | [], _ => true
  | _, [] => false
  | a :: s', b :: t' => (a =? b)%N && prefixb s' t'
  end.
Fixpoint containsb (t s : list N) : bool := prefixb s t || match t with [] => false | _ :: t' => containsb t' s end.
Lemma prefixb_app s b : prefixb s (s ++ b) = true.
Proof. induction s as [|x s IH]; cbn; auto. rewrite N.eqb_refl. exact IH. Qed.
Lemma not_contains t s : containsb t s = false -> ~ contains t s.
Proof.
  intros H (a & b & ->). enough (containsb (a ++ s ++ b) s = true) by congruence. clear H.
  induction a as [|x a IH]; cbn [app containsb].
  - destruct (s ++ b) eqn:E; cbn [containsb]; rewrite <- E, prefixb_app; reflexivity.
  - rewrite IH. apply orb_true_r.
Qed.

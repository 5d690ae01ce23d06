(** The evaluator [S_Eval.eval] computes what [get] finds. *)
From Verif Require Import P_Base P_Json P_Valid P_ValidSpec P_Str P_Glob P_Scan P_Each P_Doc P_Path P_LGet P_Total P_Parts P_Ext P_Value P_Num P_Key P_Find
  P_GetDoc P_GetArr P_Pipe P_Stream P_Follow M_Util M_Num M_Scan M_Value M_Path M_Get S_Json S_Str S_Get S_Path S_Query S_Follow S_Mod S_Eval.

(* ---------- decimal numbers ---------- *)

Lemma decimal_loop : forall fuel n acc, n < fuel -> dec_of_nat_loop fuel n acc = decimal_upto fuel n ++ acc.
Proof.
  induction fuel as [|f IH]; intros n acc Hn; [lia|]. cbn [dec_of_nat_loop decimal_upto]. change c0 with 48%N.
  pose proof (Nat.div_mod n 10 ltac:(lia)) as Hdm. pose proof (Nat.mod_upper_bound n 10 ltac:(lia)) as Hm.
  destruct (Nat.ltb_spec n 10) as [H|H].
  - replace (n / 10 =? 0) with true by (symmetry; apply Nat.eqb_eq; lia). reflexivity.
  - replace (n / 10 =? 0) with false by (symmetry; apply Nat.eqb_neq; lia).
    rewrite IH by (apply Nat.div_lt_upper_bound; lia). rewrite <- app_assoc. reflexivity.
Qed.
Lemma decimal_eq n : dec_of_nat n = decimal n.
Proof. unfold dec_of_nat, decimal. rewrite decimal_loop by lia. apply app_nil_r. Qed.

(* ---------- the search through the text ---------- *)

Section Loop2.
Context (lsub : bytes -> R ldescent) (json : bytes) (p : path).
Notation loop l := (lloop lsub json l p).
Lemma loop_string k b c r : chars k -> ws b -> c = 44%N \/ c = 93%N -> loop (quoted k ++ b ++ c :: r) = Ok (value_default, p).
Proof.
  intros Hc Hb Hcc. rewrite quoted_app_cons, lloop_str, chars_split by auto.
  assert (Ed : dropw colon_stop (b ++ c :: r) = c :: r).
  { rewrite dropw_app; [cbn [dropw]; destruct Hcc as [-> | ->]; reflexivity|].
    eapply Forall_impl; [|exact Hb]. intros x Hx. unfold ws_byte in Hx. unfold colon_stop. lia. }
  rewrite Ed. cbv zeta.
  assert (Ec : container c = false) by (destruct Hcc as [-> | ->]; reflexivity).
  assert (Ef : v_exists (fval json (c :: r)) = false) by (destruct Hcc as [-> | ->]; reflexivity).
  assert (El : lrest (c :: r) = []) by (destruct Hcc as [-> | ->]; reflexivity).
  rewrite Ec, Ef, El, !andb_false_r. reflexivity.
Qed.

Lemma loop_obj_tail ms r : ms <> [] -> loop (obj_tail ms r) = loop (commas (map (render_memb render) ms) ++ r).
Proof. intros H. destruct ms; [congruence|]. cbn [obj_tail]. apply lloop_skip; discriminate. Qed.
Lemma loop_arr_tail es r : es <> [] -> loop (arr_tail es r) = loop (commas (map (render_item render) es) ++ r).
Proof. intros H. destruct es; [congruence|]. cbn [arr_tail]. apply lloop_skip; discriminate. Qed.

End Loop2.

Section Scan.
Context (lsub : bytes -> R ldescent) (json : bytes) (p : path).
Context {A : Type} (hit : bytes -> bool) (fin : bool) (below : cst -> option A) (found : cst -> A) (scalar : A).
Context (G : A -> value -> path -> Prop) (dom : cst -> Prop).
Notation scan := (scan_with hit fin below found scalar).
Notation loop l := (lloop lsub json l p).

Fixpoint smembers (ms : list (memb cst)) : ending A :=
  match ms with
  | [] => Stop
  | m :: t =>
      match m with Memb _ _ _ _ v _ =>
        if hit (name_of m) then
          if fin then Found (found v)
          else match v with
               | CArr _ _ | CObj _ _ =>
                   match below v with
                   | Some r => Found r
                   | None => match scan v with Go => smembers t | e => e end
                   end
               | _ => Found scalar
               end
        else smembers t
      end
  end.
Fixpoint selems (es : list (item cst)) : ending A :=
  match es with
  | [] => Go
  | e :: t => match e with Item _ v _ => match scan v with Go => selems t | r => r end end
  end.
Lemma scan_obj w ms : scan (CObj w ms) = smembers ms.
Proof. reflexivity. Qed.
Lemma scan_arr w es : scan (CArr w es) = selems es.
Proof. reflexivity. Qed.

(** The loop on [l] ends as [e] says; [r] is what is left. *)
Definition sees (e : ending A) (l r : bytes) : Prop :=
  match e with
  | Found ro => exists v p', loop l = Ok (v, p') /\ G ro v p'
  | Stop => loop l = Ok (value_default, p)
  | Go => loop l = loop r
  end.
Lemma sees_eq e l l' r r' : loop l = loop l' -> loop r = loop r' -> sees e l' r' -> sees e l r.
Proof. unfold sees. intros El Er. rewrite El, Er. auto. Qed.

Hypothesis Hk : forall m, wf_memb m -> kmatch p (m_key m) = hit (name_of m).
Hypothesis Hda : forall w es, dom (CArr w es) -> Forall (fun e => dom (i_val e)) es.
Hypothesis Hdo : forall w ms, dom (CObj w ms) -> Forall (fun m => dom (m_val m)) ms.
Hypothesis Hfin : fin = false -> (p_sep p =? 46)%N = true.
Hypothesis Hfin1 : fin = true -> (p_sep p =? 46)%N = true -> forall l, lsub l = Ok LSquash.
Hypothesis Hlast : forall c ix, fin = true -> wf c -> dom c -> G (found c) (tval c ix) p.
Hypothesis Hscalar : forall c ix, fin = false -> wf c -> dom c -> is_container c = false -> G scalar (tval c ix) p.
Hypothesis Hsub : fin = false -> forall c r, wf c -> dom c -> is_container c = true -> follow r -> suf (render c ++ r) json ->
  match below c with
  | Some ro => exists v p', lsub (render c ++ r) = Ok (LReturn v p') /\ G ro v p'
  | None => lsub (render c ++ r) = Ok LNone
  end.

Lemma scan_spec c : wf c -> dom c -> is_container c = true -> forall r, suf (render c ++ r) json ->
  sees (scan c) (render c ++ r) r.
Proof using Hk Hda Hdo Hfin Hfin1 Hlast Hscalar Hsub.
  induction c as [ | | |n|b|w es IH|w ms IH] using cst_ind'; intros Hc Hdm Hco r Hs; try discriminate.
  - inversion Hc as [| | | | |w' es' Hw Hes|]; subst. rewrite scan_arr. pose proof (Hda _ _ Hdm) as Hd.
    assert (El : loop (render (CArr w es) ++ r) = loop (commas (map (render_item render) es) ++ 93%N :: r)).
    { cbn [render]. apps. rewrite lloop_skip by discriminate. apply lloop_skips, ws_plain_skip; auto. }
    apply (sees_eq _ _ _ _ _ El eq_refl).
    assert (Hs' : suf (commas (map (render_item render) es) ++ 93%N :: r) json).
    { eapply suf_trans; [|exact Hs]. cbn [render]. apps. eapply suf_trans; [|apply suf_cons]. apply suf_app. }
    clear El Hs Hw Hc Hco Hdm.
    induction Hes as [|e es He Hes IHes]; [cbn [selems map commas app sees]; apply lloop_skip; discriminate|].
    inversion IH as [|? ? IHe IHt]; subst. inversion Hd as [|? ? Hde Hdt]; subst. rewrite commas_tail in *.
    destruct He as [a v b Ha Hv Hb]. cbn [render_item i_val selems] in *. revert Hs'. apps. intros Hs'.
    assert (Hft : follow (b ++ arr_tail es (93%N :: r))).
    { apply follow_ws; auto. destruct es; right; cbn; auto. }
    assert (Hst : suf (render v ++ b ++ arr_tail es (93%N :: r)) json).
    { eapply suf_trans; [|exact Hs']. apply suf_app. }
    assert (Et : loop (b ++ arr_tail es (93%N :: r)) = loop (commas (map (render_item render) es) ++ 93%N :: r)).
    { rewrite lloop_skips by (apply ws_plain_skip; auto). destruct es; [reflexivity|]. apply loop_arr_tail; discriminate. }
    assert (Hrest : sees (selems es) (b ++ arr_tail es (93%N :: r)) r).
    { apply (sees_eq _ _ _ _ _ Et eq_refl). apply IHes; auto. destruct es as [|e2 es].
      - cbn [map commas app]. eapply suf_trans; [|exact Hst]. cbn [arr_tail]. rewrite app_assoc. apply suf_app.
      - cbn [arr_tail] in Hst. eapply suf_trans; [|exact Hst]. eapply suf_trans; [|apply suf_app].
        eapply suf_trans; [|apply suf_app]. apply suf_cons. }
    assert (Ea : loop (a ++ render v ++ b ++ arr_tail es (93%N :: r)) = loop (render v ++ b ++ arr_tail es (93%N :: r))).
    { apply lloop_skips, ws_plain_skip; auto. }
    apply (sees_eq _ _ _ _ _ Ea eq_refl).
    assert (Hgo : Forall plain_skip (render v) -> sees (selems es) (render v ++ b ++ arr_tail es (93%N :: r)) r).
    { intros Hp. apply (sees_eq _ _ _ _ _ (lloop_skips _ _ _ (render v) _ Hp) eq_refl). exact Hrest. }
    assert (Hgo2 : is_container v = true -> sees (match scan v with Go => selems es | r => r end) (render v ++ b ++ arr_tail es (93%N :: r)) r).
    { intros Hcv. specialize (IHe Hv Hde Hcv _ Hst).
      destruct (scan v) as [ro| |]; auto. cbn [sees] in IHe. apply (sees_eq _ _ _ _ _ IHe eq_refl). exact Hrest. }
    destruct v as [ | | |n|s|w' es'|w' ms']; try (apply Hgo; repeat constructor; discriminate).
    + inversion Hv; subst. apply Hgo. apply number_skip; auto.
    + inversion Hv; subst. cbn [scan_with sees render].
      assert (E : exists c t, arr_tail es (93%N :: r) = c :: t /\ (c = 44%N \/ c = 93%N)) by (destruct es; cbn [arr_tail]; eauto).
      destruct E as (c & t & -> & Hcc). apply loop_string; auto.
    + apply Hgo2; reflexivity.
    + apply Hgo2; reflexivity.
  - inversion Hc as [| | | | | |w' ms' Hw Hms]; subst. rewrite scan_obj. pose proof (Hdo _ _ Hdm) as Hd.
    assert (El : loop (render (CObj w ms) ++ r) = loop (commas (map (render_memb render) ms) ++ 125%N :: r)).
    { cbn [render]. apps. rewrite lloop_skip by discriminate. apply lloop_skips, ws_plain_skip; auto. }
    apply (sees_eq _ _ _ _ _ El eq_refl).
    assert (Hs' : suf (commas (map (render_memb render) ms) ++ 125%N :: r) json).
    { eapply suf_trans; [|exact Hs]. cbn [render]. apps. eapply suf_trans; [|apply suf_cons]. apply suf_app. }
    clear El Hs Hw Hc Hco Hdm.
    induction Hms as [|m ms Hm Hms IHms]; [reflexivity|].
    inversion IH as [|? ? IHe IHt]; subst. inversion Hd as [|? ? Hde Hdt]; subst. rewrite commas_tail_m in *. pose proof (Hk m Hm) as Hkm.
    destruct Hm as [a k b c v d Ha Hkc Hb Hcc Hv Hwd]. cbn [render_memb m_val m_key smembers] in *. revert Hs'. apps. intros Hs'.
    set (R' := d ++ obj_tail ms (125%N :: r)) in *.
    assert (Hft : follow R') by (apply follow_ws; auto; apply obj_tail_follow; right; auto).
    assert (Hst : suf (render v ++ R') json).
    { eapply suf_trans; [|exact Hs']. rewrite !app_comm_cons, !app_assoc. rewrite <- (app_assoc _ (render v) R'). apply suf_app. }
    assert (Et : loop R' = loop (commas (map (render_memb render) ms) ++ 125%N :: r)).
    { unfold R'. rewrite lloop_skips by (apply ws_plain_skip; auto). destruct ms; [reflexivity|]. apply loop_obj_tail; discriminate. }
    assert (Hrest : sees (smembers ms) R' r).
    { apply (sees_eq _ _ _ _ _ Et eq_refl). apply IHms; auto. unfold R' in Hst. destruct ms as [|m2 ms].
      - cbn [map commas app]. eapply suf_trans; [|exact Hst]. cbn [obj_tail]. rewrite app_assoc. apply suf_app.
      - cbn [obj_tail] in Hst. eapply suf_trans; [|exact Hst]. eapply suf_trans; [|apply suf_app].
        eapply suf_trans; [|apply suf_app]. apply suf_cons. }
    pose proof (lloop_memb lsub json p a k b c v R' Ha Hkc Hb Hcc Hv Hft) as Em. cbv zeta in Em. rewrite Hkm in Em.
    destruct (hit (name_of (Memb a k b c v d))); [|apply (sees_eq _ _ _ _ _ Em eq_refl); exact Hrest].
    rewrite fval_render in Em by auto.
    destruct fin eqn:Ef.
    { assert (Em' : loop (a ++ quoted k ++ b ++ 58%N :: c ++ render v ++ R') = Ok (tval v (Some (pos json (render v ++ R'))), p)).
      { destruct (p_sep p =? 46)%N eqn:E46; [|exact Em]. destruct (is_container v); cbn [andb] in Em; [|exact Em].
        rewrite (Hfin1 eq_refl eq_refl) in Em. exact Em. }
      cbn [sees]. rewrite Em'. do 2 eexists. split; [reflexivity|]. apply Hlast; auto. }
    rewrite (Hfin eq_refl) in Em. cbn [andb] in Em.
    destruct (is_container v) eqn:Eco.
    2:{ assert (Es : match v with CArr _ _ | CObj _ _ =>
              match below v with Some r0 => Found r0 | None => match scan_with hit false below found scalar v with Go => smembers ms | e => e end end
            | _ => Found scalar end = Found scalar) by (destruct v; try reflexivity; discriminate).
        rewrite Es. cbn [sees]. rewrite Em. do 2 eexists. split; [reflexivity|]. apply Hscalar; auto. }
    assert (Es : match v with CArr _ _ | CObj _ _ =>
              match below v with Some r0 => Found r0 | None => match scan_with hit false below found scalar v with Go => smembers ms | e => e end end
            | _ => Found scalar end =
          match below v with Some r0 => Found r0 | None => match scan_with hit false below found scalar v with Go => smembers ms | e => e end end)
      by (destruct v; try reflexivity; discriminate).
    rewrite Es. specialize (Hsub eq_refl v R' Hv Hde Eco Hft Hst). destruct (below v) as [ro|].
    + destruct Hsub as (v' & p' & E' & Hg). rewrite E' in Em. cbn [bind] in Em. cbn [sees]. eauto.
    + rewrite Hsub in Em. cbn [bind] in Em. specialize (IHe Hv Hde eq_refl R' Hst).
      apply (sees_eq _ _ _ _ _ Em eq_refl). destruct (scan_with hit false below found scalar v) as [ro| |]; auto.
      cbn [sees] in IHe. apply (sees_eq _ _ _ _ _ IHe eq_refl). exact Hrest.
Qed.
End Scan.

(* ---------- steps ---------- *)

Lemma step_any s : step_ok s -> any_comp (step_text s).
Proof.
  destruct s as [k| |q all]; cbn [step_ok step_text]; intros H.
  - left; auto.
  - right; left; auto.
  - right; right; eauto.
Qed.

Lemma name_of_sdec m : wf_memb m -> name_of m = sdec (m_key m).
Proof. intros H. unfold name_of. rewrite unescape_sdec by auto. reflexivity. Qed.

Section Ev.
Context (mt : text -> text -> bool) (ix : text -> option nat) (hd : text -> cst -> bool) (all : list step).
Hypothesis Hmean : meaning mt ix hd all.

Definition okst (s : step) : Prop := step_ok s /\ In s all.
Definition oks (ss : list step) : Prop := Forall okst ss /\ apart ss.
Lemma oks_cons s ss : oks (s :: ss) -> okst s /\ oks ss.
Proof using. intros [H [_ Ha]]. inversion H; subst. repeat split; auto; apply H2. Qed.
Lemma oks_nil : oks [].
Proof using. split; [constructor | exact I]. Qed.
Notation texts ss := (map step_text ss).
Notation eval := (eval mt ix hd).

Lemma okst_any ss : oks ss -> Forall any_comp (texts ss).
Proof using. intros [H _]. induction H as [|s ss [H _] _ IH]; constructor; auto. apply step_any; auto. Qed.

Lemma hits_match s sp x m : okst s -> wf_memb m -> kmatch (cpath (step_text s) sp x) (m_key m) = hits mt s (name_of m).
Proof using Hmean.
  intros [Hs Hin] Hm. rewrite name_of_sdec by auto. apply eq_true_iff_eq. destruct s as [k| |q al]; cbn [step_text hits].
  - unfold cpath. rewrite cflags_comp by auto. rewrite kmatch_glob by apply Hs.
    rewrite globm_bare. symmetry. apply (mn_match _ _ _ _ Hmean); auto.
  - unfold kmatch. change (p_pat (cpath [35%N] sp x) || p_esc (cpath [35%N] sp x)) with false. cbv match.
    change (p_comp (cpath [35%N] sp x)) with [35%N]. rewrite beq_eq. destruct (list_eq_dec _ _ _); intuition congruence.
  - unfold kmatch. change (p_pat (cpath (qcomp q al) sp x) || p_esc (cpath (qcomp q al) sp x)) with false. cbv match.
    change (p_comp (cpath (qcomp q al) sp x)) with (qcomp q al). rewrite beq_eq. destruct (list_eq_dec _ _ _); intuition congruence.
Qed.

(** What a lookup in a container returns. *)
Definition G (n : nat) (r : option cst) (v : value) (p : path) : Prop :=
  v_exists v = true /\
  ((exists d, r = Some d /\ shows v d /\ p_more p = false) \/
   (exists d i ss, v = tval d i /\ wf d /\ ss <> [] /\ oks ss /\ length ss < n /\
      left_of p (texts ss) /\ r = flat (eval ss d))).
Definition out (n : nat) (o : option (option cst)) (v : value) (p : path) : Prop :=
  match o with
  | Some r => G n r v p
  | None => v = value_default /\ exists ss, oks ss /\ left_of p (texts ss)
  end.
Lemma G_weak n m r v p : n <= m -> G n r v p -> G m r v p.
Proof using.
  intros Hn [H [H'|(d & i & ss & H1 & H2 & H3 & H4 & H5 & H6)]]; split; auto. right. exists d, i, ss.
  split; auto. split; auto. split; auto. split; auto. split; [eapply Nat.lt_le_trans; eauto | auto].
Qed.

(** A value with the rest of the path. *)
Lemma G_rest n d i s ss : wf d -> oks ss -> length ss < n ->
  G n (flat (eval ss d)) (tval d i) (path1 (step_text s) (texts ss)).
Proof using.
  intros Hd Hss Hn. split; [apply tval_exists; auto|]. destruct ss as [|s2 ss].
  - left. exists d. split; [reflexivity|]. split; [apply tval_shows; auto | reflexivity].
  - right. exists d, i, (s2 :: ss). split; auto. split; auto. split; [discriminate|]. split; auto. split; auto.
    split; auto. apply left_path1.
Qed.

Lemma shows_list vs l : map v_json vs = map render l ->
  shows (mkowned (91%N :: commas (map v_json vs) ++ [93%N]) INFO_ARRAY None) (array_of l).
Proof using.
  intros E. assert (Er : 91%N :: commas (map v_json vs) ++ [93%N] = render (array_of l)).
  { rewrite E. unfold array_of. cbn [render app]. do 3 f_equal. rewrite map_map. apply map_ext. intros c.
    cbn [render_item]. rewrite app_nil_r. reflexivity. }
  rewrite Er. constructor; try reflexivity.
Qed.

(** The elements one after the other. *)
Lemma collect_push (F : value -> R (option value)) (H : cst -> option cst) json w es r : wf (CArr w es) ->
  (forall e i, In e es -> exists o, F (tval (i_val e) i) = Ok o /\
     match H (i_val e) with
     | Some d => exists v, o = Some v /\ shows v d
     | None => match o with Some v => v_exists v = false | None => True end
     end) ->
  exists st, push_all F (elems json false (render (CArr w es) ++ r)) ([91%N], 0) = Ok st /\
    shows (mkowned (fst st ++ [93%N]) INFO_ARRAY None) (array_of (collect H (map i_val es))).
Proof using.
  intros Hw HF. pose proof (elems_tval json w es r Hw) as HE. set (xs := elems _ _ _) in *. clearbody xs. clear Hw.
  assert (exists ys, Forall2 (fun x y => F x = Ok y) xs ys /\
    map v_json (filter v_exists (flat_map (fun o => match o with Some y => [y] | None => [] end) ys)) =
    map render (collect H (map i_val es))) as (ys & HY & Ey).
  { revert HF. induction HE as [|e x es xs (i & ->) HE IH]; intros HF; [exists []; split; [constructor | reflexivity]|].
    destruct IH as (ys & HY & Ey); [intros; apply HF; right; auto|].
    destruct (HF e i ltac:(left; auto)) as (o & Eo & Ho). exists (o :: ys). split; [constructor; auto|].
    cbn [flat_map map collect]. fold (collect H (map i_val es)).
    destruct (H (i_val e)) as [d|].
    - destruct Ho as (v & -> & [Hv Hj _ _]). cbn [app filter map]. rewrite Hv. cbn [map]. rewrite Hj, Ey. reflexivity.
    - destruct o as [v|]; cbn [app filter]; [rewrite Ho|]; exact Ey. }
  rewrite (push_all_opt _ _ _ _ HY). eexists. split; [reflexivity|]. rewrite push_list0. apply shows_list. exact Ey.
Qed.

(** The element lookups of queries. *)
Lemma holds_elem q al e i lh op rh : okst (Query q al) -> wf e -> qparts q = (lh, op, rh) ->
  elem_matches get (tval e i) lh op rh = Ok (hd q e).
Proof using Hmean.
  intros [Hs Hin] He Eq. cbn [step_ok] in Hs. rewrite (elem_matches_ix get e i None) by auto.
  pose proof (mn_holds _ _ _ _ Hmean q al e Hin He) as Hh. apply q_holds_ematch in Hh; auto. unfold ematch in Hh. rewrite Eq in Hh. exact Hh.
Qed.

Lemma find_elems q al es xs lh op rh : okst (Query q al) -> qparts q = (lh, op, rh) -> Forall wf_item es ->
  Forall2 (fun e x => exists i, x = tval (i_val e) i) es xs ->
  match find (hd q) (map i_val es) with
  | Some d => exists i, find_r (fun v => elem_matches get v lh op rh) xs = Ok (tval d i) /\ wf d
  | None => find_r (fun v => elem_matches get v lh op rh) xs = Ok value_default
  end.
Proof using Hmean.
  intros Hq Ep Hw HF. induction HF as [|e x es xs (i & ->) HF IH]; [reflexivity|].
  inversion Hw as [|? ? He Hes]; subst. pose proof (wf_ival _ He) as Hwe. cbn [map find find_r].
  rewrite (holds_elem q al (i_val e) i lh op rh Hq Hwe Ep). cbn [bind]. destruct (hd q (i_val e)); [eauto|]. apply IH; auto.
Qed.

Lemma filter_collect (f : cst -> bool) (H : cst -> option cst) l :
  collect H (filter f l) = collect (fun c => if f c then H c else None) l.
Proof using.
  induction l as [|c l IH]; auto. cbn [filter collect flat_map]. fold (collect (fun c => if f c then H c else None) l).
  destruct (f c); cbn [flat_map app]; [|exact IH]. unfold collect at 1. cbn [flat_map]. fold (collect H (filter f l)). rewrite IH. reflexivity.
Qed.

Lemma group_texts s ss : oks ss -> ss <> [] ->
  exists r, next_group (path1 (step_text s) (texts ss)) = Ok (dotted (texts ss), r) /\ p_more r = false.
Proof using.
  intros H Hn. rewrite next_group_spec. destruct ss as [|s2 ss]; [congruence|]. cbn [map path1].
  change (p_sep (cpath (step_text s) 46 (dotted (step_text s2 :: texts ss)))) with 46%N. cbn [N.eqb Pos.eqb].
  change (p_extra (cpath (step_text s) 46 (dotted (step_text s2 :: texts ss)))) with (dotted (texts (s2 :: ss))).
  destruct (group_dotted (texts (s2 :: ss)) (okst_any _ H) ltac:(discriminate)) as (r & -> & Hr).
  exists r. split; [reflexivity|]. unfold p_more. rewrite Hr. reflexivity.
Qed.

Definition get_ok (ss : list step) : Prop :=
  forall c, wf c -> answers (render c) (dotted (texts ss)) (flat (eval ss c)).

Lemma elem_get ss e i : get_ok ss -> wf e -> exists v, v_get_with get (tval e i) (dotted (texts ss)) = Ok v /\
  match flat (eval ss e) with Some d => shows v d | None => v_exists v = false end.
Proof using.
  intros Hg He. rewrite v_get_tval by auto. specialize (Hg e He). unfold answers, gets, gets_none in Hg.
  destruct (flat (eval ss e)) as [d|]; destruct Hg as (v & -> & Hv); cbn [bind]; eexists; (split; [reflexivity|]).
  - apply shows_index; auto.
  - exact Hv.
Qed.

Lemma larr_eval json w es r s ss : wf (CArr w es) -> okst s -> oks ss -> (ss <> [] -> get_ok ss) ->
  exists v p, larr get json false (render (CArr w es) ++ r) (path1 (step_text s) (texts ss)) = Ok (v, p) /\
    out (S (length ss)) (eval (s :: ss) (CArr w es)) v p.
Proof using Hmean.
  intros Hc Hs Hss Hget. pose proof (elems_tval json w es r Hc) as HF. pose proof (wf_items _ _ Hc) as Hwi.
  assert (Hin : forall e, In e es -> wf (i_val e)) by (intros e He; apply wf_ival; apply (proj1 (Forall_forall _ _) Hwi); auto).
  assert (Hno : out (S (length ss)) None value_default (path1 (step_text s) (texts ss))).
  { split; auto. exists ss. split; auto. apply left_path1. }
  destruct s as [k| |q [|]].
  - (* index *)
    destruct Hs as [Hk Hki]. cbn [step_text].
    assert (E : larr get json false (render (CArr w es) ++ r) (path1 k (texts ss)) =
      Ok (if (0 <=? comp_index k)%Z then nth (Z.to_nat (comp_index k)) (elems json false (render (CArr w es) ++ r)) value_default
          else value_default, path1 k (texts ss))).
    { unfold larr. destruct (path_comp [] k (texts ss)) as [-> _]. cbv zeta.
      destruct k as [|x k]; [reflexivity|]. destruct Hk as [_ (_ & Hh & _)]. replace (x =? 35)%N with false by lia. reflexivity. }
    rewrite E. do 2 eexists. split; [reflexivity|]. cbn [S_Eval.eval].
    pose proof (fun n => mn_index _ _ _ _ Hmean k n Hki) as Hi.
    destruct (ix k) as [n|] eqn:En.
    + assert (Ek : comp_index k = Z.of_nat n) by (apply index_key_iff, Hi; auto). rewrite Ek.
      replace (0 <=? Z.of_nat n)%Z with true by lia. rewrite Nat2Z.id.
      destruct (nth_error es n) as [e|] eqn:Ee.
      * destruct (Forall2_nth_some _ _ _ _ _ value_default HF Ee) as (i & ->).
        apply (G_rest (S (length ss)) (i_val e) i (Name k) ss); auto. apply Hin. eapply nth_error_In; eauto.
      * rewrite (Forall2_nth_none _ _ _ _ value_default HF) by (apply nth_error_None; auto). exact Hno.
    + destruct (Z.leb_spec 0 (comp_index k)) as [Hz|Hz]; [|exact Hno].
      assert (Ek : index_key k (Z.to_nat (comp_index k))) by (apply index_key_iff; lia). apply Hi in Ek. discriminate.
  - (* hash *)
    destruct ss as [|s2 ss].
    + cbn [map path1 step_text S_Eval.eval].
      unfold larr. change (p_comp (cpath [35%N] 0 [])) with [35%N]. cbn [N.eqb Pos.eqb cpath p_sep]. rewrite elems_length by auto.
      do 2 eexists. split; [reflexivity|]. rewrite <- decimal_eq. destruct (dec_of_nat_spec (length es)) as [Hl Hn].
      assert (Hj : v_json (mkowned (dec_of_nat (length es)) INFO_NUMBER None) = dec_of_nat (length es)).
      { unfold v_json. cbn [mkowned v_owned v_slice]. destruct (dec_of_nat (length es)); reflexivity. }
      destruct (number_head _ Hn) as (h & t & Eh & _).
      assert (Hx : v_exists (mkowned (dec_of_nat (length es)) INFO_NUMBER None) = true).
      { unfold v_exists. rewrite Hj, Eh. reflexivity. }
      split; auto. left. eexists. split; [reflexivity|]. split; [|reflexivity]. constructor; auto.
      unfold v_str. change (v_kind (mkowned (dec_of_nat (length es)) INFO_NUMBER None)) with KNumber. cbv match. rewrite Hj. reflexivity.
    + unfold larr. cbn [map path1 step_text]. change (p_comp (cpath [35%N] 46 (dotted (step_text s2 :: texts ss)))) with [35%N].
      change (p_sep (cpath [35%N] 46 (dotted (step_text s2 :: texts ss)))) with 46%N. cbn [N.eqb Pos.eqb].
      destruct (group_texts Hash (s2 :: ss) Hss ltac:(discriminate)) as (rp & Eg & Hm). cbn [map path1 step_text] in Eg. rewrite Eg. cbn [bind].
      destruct (collect_push (fun v => x <- v_get_with get v (dotted (texts (s2 :: ss))) ;; Ok (Some x))
        (fun e => flat (eval (s2 :: ss) e)) json w es r Hc) as (st & Est & Hsh).
      { intros e i He. destruct (elem_get (s2 :: ss) (i_val e) i (Hget ltac:(discriminate)) (Hin e He)) as (v & -> & Hv). cbn [bind].
        eexists. split; [reflexivity|]. destruct (flat (eval (s2 :: ss) (i_val e))); eauto. }
      cbn [map] in Est. rewrite Est. cbn [bind]. do 2 eexists. split; [reflexivity|].
      change (S_Eval.eval mt ix hd (Hash :: s2 :: ss) (CArr w es)) with
        (Some (Some (array_of (collect (fun e => flat (eval (s2 :: ss) e)) (map i_val es))))).
      split; [apply Hsh|]. left. eexists. split; [reflexivity|]. split; auto.
  - (* all matches *)
    destruct (qparts q) as [[lh op] rh] eqn:Ep.
    change (S_Eval.eval mt ix hd (Query q true :: ss) (CArr w es)) with
      (Some (Some (array_of (collect (fun e => flat (eval ss e)) (filter (hd q) (map i_val es)))))). rewrite filter_collect.
    destruct ss as [|s2 ss].
    + cbn [map path1 step_text]. rewrite larr_all, Ep. cbn [bind]. rewrite next_group_spec.
      change (p_sep (cpath (qcomp q true) 0 [])) with 0%N. cbn [N.eqb bind].
      destruct (collect_push (fun v => m <- elem_matches get v lh op rh ;; (if m : bool then Ok (Some v) else Ok None))
        (fun e => if hd q e then flat (eval [] e) else None) json w es r Hc) as (st & Est & Hsh).
      { intros e i He. rewrite (holds_elem q true (i_val e) i lh op rh Hs (Hin e He) Ep). cbn [bind].
        destruct (hd q (i_val e)); eexists; (split; [reflexivity|]); cbn; auto. eexists. split; [reflexivity|]. apply tval_shows; auto. }
      rewrite Est. cbn [bind]. do 2 eexists. split; [reflexivity|]. split; [apply Hsh|]. left. eexists. split; [reflexivity|]. split; auto.
    + cbn [map path1 step_text]. rewrite larr_all, Ep. cbn [bind].
      destruct (group_texts (Query q true) (s2 :: ss) Hss ltac:(discriminate)) as (rp & Eg & Hm). cbn [map path1 step_text] in Eg. rewrite Eg. cbn [bind N.eqb Pos.eqb].
      destruct (collect_push (fun v => m <- elem_matches get v lh op rh ;;
          (if m : bool then x <- v_get_with get v (dotted (texts (s2 :: ss))) ;; Ok (Some x) else Ok None))
        (fun e => if hd q e then flat (eval (s2 :: ss) e) else None) json w es r Hc) as (st & Est & Hsh).
      { intros e i He. rewrite (holds_elem q true (i_val e) i lh op rh Hs (Hin e He) Ep). cbn [bind].
        destruct (hd q (i_val e)); [|eexists; split; [reflexivity|]; exact I].
        destruct (elem_get (s2 :: ss) (i_val e) i (Hget ltac:(discriminate)) (Hin e He)) as (v & -> & Hv). cbn [bind].
        eexists. split; [reflexivity|]. destruct (flat (eval (s2 :: ss) (i_val e))); eauto. }
      cbn [map] in Est. rewrite Est. cbn [bind]. do 2 eexists. split; [reflexivity|].
      split; [apply Hsh|]. left. eexists. split; [reflexivity|]. split; auto.
  - (* first match *)
    destruct (qparts q) as [[lh op] rh] eqn:Ep.
    assert (E : larr get json false (render (CArr w es) ++ r) (path1 (qcomp q false) (texts ss)) =
      (v <- find_r (fun v => elem_matches get v lh op rh) (elems json false (render (CArr w es) ++ r)) ;; Ok (v, path1 (qcomp q false) (texts ss)))).
    { destruct ss; cbn [map path1]; rewrite larr_one, Ep; reflexivity. }
    cbn [step_text]. rewrite E. pose proof (find_elems q false es _ lh op rh Hs Ep Hwi HF) as Hf.
    change (S_Eval.eval mt ix hd (Query q false :: ss) (CArr w es)) with
      (match find (hd q) (map i_val es) with Some e => Some (flat (eval ss e)) | None => None end).
    destruct (find (hd q) (map i_val es)) as [d|].
    + destruct Hf as (i & -> & Hd). cbn [bind]. do 2 eexists. split; [reflexivity|].
      apply (G_rest (S (length ss)) d i (Query q false) ss); auto.
    + rewrite Hf. cbn [bind]. do 2 eexists. split; [reflexivity|]. exact Hno.
Qed.

Lemma lobj_eval : forall ss s w ms r json f, okst s -> oks ss -> wf (CObj w ms) ->
  suf (render (CObj w ms) ++ r) json -> length ss < f ->
  (forall ss', length ss' < length ss -> oks ss' -> ss' <> [] -> get_ok ss') ->
  exists v p, lobj f get json (render (CObj w ms) ++ r) (path1 (step_text s) (texts ss)) = Ok (v, p) /\
    out (S (length ss)) (eval (s :: ss) (CObj w ms)) v p.
Proof using Hmean.
  induction ss as [|s2 ss IH]; intros s w ms r json f Hs Hss Hc Hsuf Hf Hget;
    (destruct f as [|f]; [lia|]); inversion Hc as [| | | | | |? ? Hw Hms]; subst; rewrite lobj_render by auto;
    rewrite <- (lloop_skips _ _ _ w) by (apply ws_plain_skip; auto);
    rewrite <- (lloop_skip _ _ _ 123%N) by discriminate;
    assert (Er : 123%N :: w ++ commas (map (render_memb render) ms) ++ 125%N :: r = render (CObj w ms) ++ r) by (cbn [render]; apps; reflexivity);
    rewrite Er.
  - set (p := path1 (step_text s) []).
    assert (HS := scan_spec (lsub_of f get json p) json p (hits mt s) true (eval []) Some None (G 1) (fun _ => True)
      ltac:(intros m Hm; apply hits_match; auto)
      (fun _ es _ => proj2 (Forall_forall (fun _ => True) es) (fun _ _ => I))
      (fun _ ms _ => proj2 (Forall_forall (fun _ => True) ms) (fun _ _ => I))
      ltac:(discriminate) ltac:(discriminate)
      ltac:(intros c i _ Hwc _; exact (G_rest 1 c i s [] Hwc oks_nil ltac:(cbn; lia)))
      ltac:(discriminate) ltac:(discriminate) (CObj w ms) Hc I eq_refl r Hsuf). fold (scan (hits mt s) true (eval [])) in HS.
    change (S_Eval.eval mt ix hd [s] (CObj w ms)) with
      (match scan (hits mt s) true (eval []) (CObj w ms) with Found r => Some r | _ => None end).
    assert (Hx : sees (lsub_of f get json p) json p (G 1) Stop (render (CObj w ms) ++ r) r ->
      exists v p0, lloop (lsub_of f get json p) json (render (CObj w ms) ++ r) p = Ok (v, p0) /\ out 1 None v p0).
    { intros E. cbn [sees] in E. rewrite E. do 2 eexists. split; [reflexivity|]. split; auto. exists []. split; [exact oks_nil | reflexivity]. }
    destruct (scan (hits mt s) true (eval []) (CObj w ms)) as [ro| |] eqn:Es; [exact HS | exact (Hx HS) |].
    exfalso. clear -Es. unfold scan in Es. rewrite scan_obj in Es. induction ms as [|[a k b c v d] ms IH]; [discriminate|]. cbn [smembers] in Es.
    destruct (hits _ _ _); [discriminate | auto].
  - set (p := path1 (step_text s) (texts (s2 :: ss))) in *. destruct (oks_cons _ _ Hss) as [Hs2 Hss'].
    assert (Hsub : forall c r, wf c -> is_container c = true -> follow r -> suf (render c ++ r) json ->
      match eval (s2 :: ss) c with
      | Some ro => exists v p', lsub_of f get json p (render c ++ r) = Ok (LReturn v p') /\ G (S (S (length ss))) ro v p'
      | None => lsub_of f get json p (render c ++ r) = Ok LNone
      end).
    { intros c r' Hwc Hco Hr' Hs'. unfold lsub_of. cbv zeta. change (p_extra p) with (dotted (texts (s2 :: ss))).
      cbn [map]. rewrite pnext_path1 by (apply step_any; apply Hs2).
      assert (Hmod : is_modifier (path1 (step_text s2) (texts ss)) || is_multipath (path1 (step_text s2) (texts ss)) = false).
      { assert (Hm1 : forall sp x, is_modifier (cpath (step_text s2) sp x) || is_multipath (cpath (step_text s2) sp x) = false).
        { intros sp x. destruct (any_not_mod (step_text s2) sp x ltac:(apply step_any; apply Hs2)) as [-> ->]. reflexivity. }
        destruct (texts ss); apply Hm1. }
      rewrite Hmod.
      assert (Hx : exists v p', (match render c ++ r' with
                 | x :: _ => if (x =? 123)%N then lobj f get json (render c ++ r') (path1 (step_text s2) (texts ss))
                             else larr get json false (render c ++ r') (path1 (step_text s2) (texts ss))
                 | [] => Err EPanic
                 end) = Ok (v, p') /\ out (S (length ss)) (eval (s2 :: ss) c) v p').
      { destruct c as [ | | |nn|bb|w' es'|w' ms']; try discriminate.
        - exact (larr_eval json w' es' r' s2 ss Hwc Hs2 Hss' (fun Hn => Hget ss ltac:(cbn [length]; lia) Hss' Hn)).
        - exact (IH s2 w' ms' r' json f Hs2 Hss' Hwc Hs' ltac:(cbn [length] in Hf; lia)
            (fun ss' Hl => Hget ss' ltac:(cbn [length]; lia))). }
      destruct Hx as (v & p' & -> & Ho). cbn [bind]. destruct (eval (s2 :: ss) c) as [ro|]; cbn [out] in Ho.
      - destruct Ho as [Hv Ho]. rewrite Hv. do 2 eexists. split; [reflexivity|]. apply (G_weak (S (length ss))); [lia|]. split; auto.
      - destruct Ho as [-> _]. reflexivity. }
    assert (HS := scan_spec (lsub_of f get json p) json p (hits mt s) false (eval (s2 :: ss)) Some None (G (S (S (length ss)))) (fun _ => True)
      ltac:(intros m Hm; apply hits_match; auto)
      (fun _ es _ => proj2 (Forall_forall (fun _ => True) es) (fun _ _ => I))
      (fun _ ms _ => proj2 (Forall_forall (fun _ => True) ms) (fun _ _ => I))
      (fun _ => eq_refl) ltac:(discriminate) ltac:(discriminate)
      ltac:(intros c i _ Hwc _ Hco; pose proof (G_rest (S (S (length ss))) c i s (s2 :: ss) Hwc Hss ltac:(cbn; lia)) as HG;
            destruct c; try discriminate; exact HG)
      ltac:(intros _ c r0 Hwc _; exact (Hsub c r0 Hwc)) (CObj w ms) Hc I eq_refl r Hsuf). fold (scan (hits mt s) false (eval (s2 :: ss))) in HS.
    change (S_Eval.eval mt ix hd (s :: s2 :: ss) (CObj w ms)) with
      (match scan (hits mt s) false (eval (s2 :: ss)) (CObj w ms) with Found r => Some r | _ => None end).
    assert (Hx : lloop (lsub_of f get json p) json (render (CObj w ms) ++ r) p = Ok (value_default, p) ->
      exists v p0, lloop (lsub_of f get json p) json (render (CObj w ms) ++ r) p = Ok (v, p0) /\ out (S (length (s2 :: ss))) None v p0).
    { intros E. rewrite E. do 2 eexists. split; [reflexivity|]. split; auto. exists (s2 :: ss). split; auto. apply left_path1. }
    destruct (scan (hits mt s) false (eval (s2 :: ss)) (CObj w ms)) as [ro| |] eqn:Es; [exact HS | exact (Hx HS) |].
    exfalso. clear -Es. unfold scan in Es. rewrite scan_obj in Es. induction ms as [|[a k b c v d] ms IH]; [discriminate|]. cbn [smembers] in Es.
    destruct (hits _ _ _); [|auto]. destruct v; try discriminate; destruct (eval (s2 :: ss) _); try discriminate;
      destruct (scan_with _ _ _ _ _ _); try discriminate; auto.
Qed.

(* ---------- get ---------- *)

Lemma split_steps s ss : oks (s :: ss) -> split_lines (dotted (texts (s :: ss))) = (false, dotted (texts (s :: ss))).
Proof using.
  intros [H [Ha _]]. inversion H as [|? ? [Hs _] Hss]; subst. pose proof (step_any s Hs) as Hc.
  destruct ss as [|s2 ss]; [apply any_split_end; exact Hc|]. cbn [map]. rewrite dotted_cons by discriminate.
  destruct (step_text s) as [|c k] eqn:E; [|apply any_split; [exact Hc | discriminate]].
  specialize (Ha eq_refl). inversion Hss as [|? ? [Hs2 _] _]; subst. pose proof (step_any s2 Hs2) as Hc2.
  assert (Hd : exists x y, dotted (step_text s2 :: texts ss) = x :: y /\ x <> 46%N).
  { assert (Hx : exists x y, step_text s2 = x :: y /\ x <> 46%N).
    { destruct (step_text s2) as [|x y] eqn:E2; [congruence|]. exists x, y. split; auto.
      destruct Hc2 as [[Hb _]|[E3|(q & al & _ & E3)]]; [|injection E3 as -> _; discriminate|injection E3 as -> _; discriminate].
      inversion Hb as [|? ? (H1 & _) Ht|]; subst; [auto | discriminate]. }
    destruct Hx as (x & y & Ex & Hx). destruct ss; [exists x, y; auto|]. cbn [map]. rewrite dotted_cons by discriminate. rewrite Ex. cbn [app]. eauto. }
  destruct Hd as (x & y & -> & Hx). cbn [app split_lines]. replace (x =? 46)%N with false by lia. rewrite andb_false_r. reflexivity.
Qed.
Lemma get_steps json s ss : oks (s :: ss) ->
  get json (dotted (texts (s :: ss))) =
    ('(res, p) <- lstart get json (path1 (step_text s) (texts ss)) ;; if negb (p_more p) then Ok res else v_get res (p_extra p)).
Proof using.
  intros H. rewrite get_eq, get_body_spec, split_steps by auto. cbv zeta. unfold lget_first. cbn [map].
  destruct H as [H _]. inversion H as [|? ? [Hs _] Hss]; subst. pose proof (step_any s Hs) as Hc.
  rewrite pnext_path1 by auto.
  assert (Hm : is_modifier (path1 (step_text s) (texts ss)) = false /\ is_multipath (path1 (step_text s) (texts ss)) = false)
    by (destruct (texts ss); apply any_not_mod; exact Hc).
  destruct Hm as [-> ->]. reflexivity.
Qed.

Lemma get_nothing : forall ss, oks ss -> ss <> [] -> exists v, get [] (dotted (texts ss)) = Ok v /\ v_exists v = false.
Proof using.
  induction ss as [|s ss IH]; intros H Hne; [congruence|]. rewrite (get_steps [] s ss H). unfold lstart. cbn [dropw bind].
  destruct (oks_cons _ _ H) as [Hk Hks]. destruct ss as [|s2 ss].
  - change (p_more (path1 (step_text s) (texts []))) with false. cbn [negb]. eauto.
  - change (negb (p_more (path1 (step_text s) (texts (s2 :: ss))))) with false. cbv match.
    change (p_extra (path1 (step_text s) (texts (s2 :: ss)))) with (dotted (texts (s2 :: ss))).
    unfold v_get, v_get_with. cbn [value_default v_slice v_owned v_index]. destruct (IH Hks ltac:(discriminate)) as (v & -> & Hv).
    cbn [bind]. eexists. split; [reflexivity|]. apply not_exists_owned; auto.
Qed.

Lemma finish json s ss o : oks (s :: ss) ->
  (forall ss', length ss' < length (s :: ss) -> oks ss' -> ss' <> [] -> get_ok ss') ->
  (exists v p, lstart get json (path1 (step_text s) (texts ss)) = Ok (v, p) /\ out (S (length ss)) o v p) ->
  answers json (dotted (texts (s :: ss))) (flat o).
Proof using.
  intros Hss Hget Hout. unfold answers, gets, gets_none. rewrite (get_steps json s ss Hss).
  destruct Hout as (v & p & -> & Hout). cbn [bind]. destruct o as [ro|]; cbn [out flat] in *.
  - destruct Hout as [Hv [(d & -> & Hd & Hm)|(d & i & ss' & -> & Hd & Hne' & Hok & Hl & Hleft & ->)]].
    + rewrite Hm. cbn [negb]. eauto.
    + assert (Hp : p_more p = true /\ p_extra p = dotted (texts ss')) by (destruct ss'; [congruence | exact Hleft]).
      destruct Hp as [-> ->]. cbn [negb]. unfold v_get.
      destruct (elem_get ss' d i (Hget ss' ltac:(cbn [length]; lia) Hok Hne') Hd) as (v & -> & Hv').
      destruct (flat (eval ss' d)); eauto.
  - destruct Hout as [-> (ss' & Hok & Hleft)]. destruct ss' as [|s' ss'].
    + cbn [map left_of] in Hleft. rewrite Hleft. cbn [negb]. eexists. split; reflexivity.
    + destruct Hleft as [-> ->]. cbn [negb]. unfold v_get, v_get_with. cbn [value_default v_slice v_owned v_index].
      destruct (get_nothing _ Hok ltac:(discriminate)) as (v & Ev & Hv). rewrite Ev. cbn [bind]. eexists. split; [reflexivity|].
      apply not_exists_owned; auto.
Qed.

Lemma get_eval : forall n ss c w1 w2, length ss <= n -> oks ss -> ss <> [] -> ws w1 -> wf c ->
  answers (w1 ++ render c ++ w2) (dotted (texts ss)) (flat (eval ss c)).
Proof using Hmean.
  induction n as [n IHn] using lt_wf_ind. intros ss c w1 w2 Hn Hss Hne Hw1 Hc.
  destruct ss as [|s ss]; [congruence|]. destruct (oks_cons _ _ Hss) as [Hs Hss'].
  assert (Hget : forall ss', length ss' < length (s :: ss) -> oks ss' -> ss' <> [] -> get_ok ss').
  { intros ss' Hl Hok Hn' d Hd. pose proof (IHn (length ss') ltac:(lia) ss' d [] [] (le_n _) Hok Hn' ltac:(constructor) Hd) as H.
    cbn [app] in H. rewrite app_nil_r in H. exact H. }
  fold (doc w1 c w2). apply (finish (doc w1 c w2) s ss (eval (s :: ss) c) Hss Hget).
  assert (Hout : exists v p, lstart get (doc w1 c w2) (path1 (step_text s) (texts ss)) = Ok (v, p) /\ out (S (length ss)) (eval (s :: ss) c) v p).
  { assert (Hd : is_container c = false -> exists v p, lstart get (doc w1 c w2) (path1 (step_text s) (texts ss)) = Ok (v, p) /\ out (S (length ss)) (eval (s :: ss) c) v p).
    { intros Eco. rewrite lstart_scalar by auto. do 2 eexists. split; [reflexivity|].
      assert (Ee : eval (s :: ss) c = None) by (destruct c; try discriminate; reflexivity). rewrite Ee.
      split; auto. exists ss. split; auto. apply left_path1. }
    destruct c as [ | | |nn|bb|w es|w ms]; try (apply Hd; reflexivity).
    - rewrite lstart_arr by auto. apply larr_eval; auto.
    - rewrite lstart_obj by auto. apply lobj_eval; auto using suf_doc.
      + assert (Hd' : forall cs, length cs <= S (length (dotted cs))).
        { clear. induction cs as [|k2 ks IH]; [cbn; lia|]. destruct ks as [|k3 ks]; [cbn; lia|].
          rewrite dotted_cons by discriminate. rewrite app_length. cbn [length] in *. lia. }
        specialize (Hd' (texts ss)). rewrite map_length in Hd'. destruct ss as [|s2 ss]; [cbn; lia|].
        change (p_extra (path1 (step_text s) (texts (s2 :: ss)))) with (dotted (texts (s2 :: ss))). lia.
      + intros ss' Hl. apply Hget. cbn [length]. lia. }
  exact Hout.
Qed.
End Ev.

Lemma get_result mt ix hd ss c w1 w2 : meaning mt ix hd ss -> steps_ok ss -> ss <> [] -> ws w1 -> wf c ->
  answers (w1 ++ render c ++ w2) (dotted (map step_text ss)) (result mt ix hd ss c).
Proof.
  intros Hm [Hok Hap] Hne H1 Hc. apply (get_eval mt ix hd ss Hm (length ss)); auto. split; auto.
  apply Forall_forall. intros s Hs. split; auto. apply (proj1 (Forall_forall _ _) Hok); auto.
Qed.

(* ---------- the parameters exist ---------- *)

Definition match0 (k n : text) : bool := pm k n.
Definition index0 (k : text) : option nat := if (0 <=? comp_index k)%Z then Some (Z.to_nat (comp_index k)) else None.
Definition holds0 (q : text) (e : cst) : bool :=
  match get (91%N :: render e ++ [93%N]) (qcomp q false) with Ok v => v_exists v | Err _ => false end.

Lemma dotted_in s ss : In s ss -> exists a b, dotted (map step_text ss) = a ++ step_text s ++ b.
Proof.
  induction ss as [|x ss IH]; intros H; [destruct H|]. cbn [map]. destruct ss as [|y ss].
  - destruct H as [->|[]]. exists [], []. cbn [map dotted app]. rewrite app_nil_r. reflexivity.
  - rewrite dotted_cons by discriminate. destruct H as [->|H]; [exists []; eexists; reflexivity|].
    destruct (IH H) as (a & b & E). exists (step_text x ++ 46%N :: a), b. rewrite E, <- app_assoc. reflexivity.
Qed.
Lemma qcomp_ext q al : exists b, qcomp q al = qcomp q false ++ b.
Proof. exists (if al then [35%N] else []). unfold qcomp. cbn [app]. rewrite <- app_assoc. destruct al; reflexivity. Qed.

Lemma meaning0 ss : Forall step_ok ss -> calm (dotted (map step_text ss)) -> meaning match0 index0 holds0 ss.
Proof.
  intros Hok Hp. split.
  - intros k n Hin. rewrite <- globm_bare.
    unfold match0, pm. destruct (pmatch_spec k n) as (r & -> & Hr). exact Hr.
  - intros k n _. rewrite index_key_iff. unfold index0. destruct (Z.leb_spec 0 (comp_index k)); split; intros E; try congruence; try lia.
    + injection E as <-. lia.
    + rewrite E, Nat2Z.id. reflexivity.
  - intros q al e Hin He. destruct (dotted_in _ _ Hin) as (a & b & E). cbn [step_text] in E.
    destruct (qcomp_ext q al) as (b' & Eb). rewrite Eb in E.
    destruct (get_total (91%N :: render e ++ [93%N]) (qcomp q false)) as (v & Ev).
    { eapply calm_infix; [|exact Hp]. exists a, (b' ++ b). rewrite E, <- !app_assoc. reflexivity. }
    unfold q_holds, holds0. rewrite Ev. eauto.
Qed.

(** Steps that are easily seen to be all right: no special bytes, no brackets in queries. *)
Definition simple_step (s : step) : bool :=
  match s with
  | Name k => forallb (fun c => negb (existsb (N.eqb c) [46; 124; 92; 64; 35; 123; 91]%N)) k
  | Hash => true
  | Query q _ => forallb (fun c => negb (existsb (N.eqb c) [40; 91; 123; 41; 93; 125; 34; 92]%N)) q
  end.
Lemma simple_step_ok s : simple_step s = true -> step_ok s /\ ~ In 92%N (step_text s).
Proof.
  destruct s as [k| |q al]; cbn [simple_step step_ok step_text]; intros Hs.
  - rename Hs into Hk. rewrite forallb_forall in Hk.
    assert (Hb : forall c, In c k -> c <> 46%N /\ c <> 124%N /\ c <> 92%N /\ c <> 64%N /\ c <> 35%N /\ c <> 123%N /\ c <> 91%N).
    { intros x Hx. specialize (Hk x Hx). cbn [existsb] in Hk. lia. }
    clear Hk. split; [|intros H; apply Hb in H; tauto]. split.
    + induction k as [|x k IHk]; [constructor|]. apply cb_char; [|apply IHk; intros; apply Hb; right; auto].
      destruct (Hb x ltac:(left; auto)) as (H1 & H2 & H3 & _). repeat split; auto.
    + destruct k as [|x k]; [exact I|]. destruct (Hb x ltac:(left; auto)) as (_ & _ & _ & H). cbn [comp_head]. tauto.
  - split; [exact I | intros [H|[]]; discriminate].
  - rewrite forallb_forall in Hs.
    assert (Hb : forall c, In c q -> c <> 40%N /\ c <> 91%N /\ c <> 123%N /\ c <> 41%N /\ c <> 93%N /\ c <> 125%N /\ c <> 34%N /\ c <> 92%N).
    { intros x Hx. specialize (Hs x Hx). cbn [existsb] in Hs. lia. }
    clear Hs. split.
    + induction q as [|x q IHq]; [constructor|]. destruct (Hb x ltac:(left; auto)) as (H1 & H2 & H3 & H4 & H5 & H6 & H7 & H8).
      apply bal_char; auto; [unfold bracket_open; tauto | unfold bracket_close; tauto |].
      apply IHq. intros; apply Hb; right; auto.
    + unfold qcomp. intros [H|[H|H]]; try discriminate. apply in_app_or in H as [H|[H|H]]; [apply Hb in H; tauto | discriminate|].
      destruct al; [destruct H as [H|[]]; discriminate | destruct H].
Qed.
Fixpoint apartb (ss : list step) : bool :=
  match ss with
  | [] => true
  | s :: t => match t with s2 :: _ => negb (beq (step_text s) [] && beq (step_text s2) []) | [] => true end && apartb t
  end.
Lemma apartb_ok ss : apartb ss = true -> apart ss.
Proof.
  induction ss as [|s ss IH]; cbn [apartb apart]; auto. intros H. apply andb_prop in H as [H1 H2]. split; auto.
  intros E. destruct ss as [|s2 ss]; auto. intros E2. rewrite E, E2 in H1. discriminate.
Qed.
Lemma simple_steps_bytes ss : forallb simple_step ss = true -> Forall step_ok ss /\ ~ In 92%N (dotted (map step_text ss)).
Proof.
  induction ss as [|s ss IH]; intros Hok; [split; [constructor | intros []]|]. cbn [forallb] in Hok. apply andb_prop in Hok as [Hs Hok].
  destruct (simple_step_ok s Hs) as [H1 H2]. destruct ss as [|s2 ss]; [split; [constructor; auto | exact H2]|].
  destruct (IH Hok) as [H3 H4]. split; [constructor; auto|]. cbn [map]. rewrite dotted_cons by discriminate. intros Hin.
  apply in_app_or in Hin as [Hin|[Hin|Hin]]; [auto | discriminate | auto].
Qed.
Lemma simple_steps ss : forallb simple_step ss && apartb ss = true -> steps_ok ss /\ ~ In 92%N (dotted (map step_text ss)).
Proof.
  intros H. apply andb_prop in H as [H1 H2]. destruct (simple_steps_bytes ss H1). split; auto. split; auto. apply apartb_ok; auto.
Qed.

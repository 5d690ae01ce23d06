(** Components followed by a dot and a modifier or multipath: [S_Then.eval_then]
    computes what [get] finds. *)
From Verif Require Import P_Base P_Json P_Valid P_ValidSpec P_Str P_Glob P_Scan P_Each P_Doc P_Path P_LGet P_Total P_Parts P_Ext P_Value P_Num P_Key P_Find
  P_GetDoc P_GetArr P_Pipe P_Stream P_Follow P_Mod P_Multi P_Compose P_Mixed P_Eval P_ModDoc M_Util M_Num M_Scan M_Value M_Path M_Get
  S_Json S_Str S_Get S_Path S_Query S_Follow S_Mod S_ModText S_Multi S_Compose S_Eval S_Then.

(** The text of what a path finds. *)
Definition jget (json p r : bytes) : Prop := exists v, get json p = Ok v /\ v_json v = r.

Lemma jget_default p r : jget [] p r -> exists v, v_get value_default p = Ok v /\ v_json v = r.
Proof.
  intros (v & E & Hv). unfold v_get, v_get_with. cbn [value_default v_slice v_owned v_index]. rewrite E. cbn [bind].
  eexists. split; [reflexivity|]. rewrite <- Hv. change (v_json (add_index None (json_into_owned v))) with (v_json (json_into_owned v)).
  apply json_into_owned_json. exact (P_ModDoc.get_one _ _ _ E).
Qed.
Lemma jget_tval e i p r : wf e -> jget (render e) p r -> exists v, v_get_with get (tval e i) p = Ok v /\ v_json v = r.
Proof. intros He (v & E & Hv). rewrite v_get_tval by auto. rewrite E. cbn [bind]. eexists. split; [reflexivity | exact Hv]. Qed.
Lemma exists_json v : v_exists v = nonempty (v_json v).
Proof. unfold v_exists. destruct (v_json v); reflexivity. Qed.

(** The elements one after the other. *)
Lemma listed_push (F : value -> R (option value)) (keep : cst -> bool) (H : cst -> text) json w es r : wf (CArr w es) ->
  (forall e i, In e es -> exists o, F (tval (i_val e) i) = Ok o /\
     if keep (i_val e) then exists v, o = Some v /\ v_json v = H (i_val e) else o = None) ->
  exists st, push_all F (elems json false (render (CArr w es) ++ r)) ([91%N], 0) = Ok st /\
    v_json (mkowned (fst st ++ [93%N]) INFO_ARRAY None) = listed (map H (filter keep (map i_val es))).
Proof.
  intros Hw HF. pose proof (elems_tval json w es r Hw) as HE. set (xs := elems _ _ _) in *. clearbody xs. clear Hw.
  assert (exists ys, Forall2 (fun x y => F x = Ok y) xs ys /\
    map v_json (filter v_exists (flat_map (fun o => match o with Some y => [y] | None => [] end) ys)) =
    filter nonempty (map H (filter keep (map i_val es)))) as (ys & HY & Ey).
  { revert HF. induction HE as [|e x es xs (i & ->) HE IH]; intros HF; [exists []; split; [constructor | reflexivity]|].
    destruct IH as (ys & HY & Ey); [intros; apply HF; right; auto|].
    destruct (HF e i ltac:(left; auto)) as (o & Eo & Ho). exists (o :: ys). split; [constructor; auto|].
    cbn [flat_map map filter]. destruct (keep (i_val e)).
    - destruct Ho as (v & -> & Hj). cbn [app filter map]. rewrite exists_json, Hj. destruct (nonempty (H (i_val e))); cbn [map]; rewrite ?Hj, Ey; reflexivity.
    - subst o. exact Ey. }
  rewrite (push_all_opt _ _ _ _ HY). eexists. split; [reflexivity|]. rewrite push_list0, Ey. unfold listed, v_json. cbn [mkowned v_owned]. reflexivity.
Qed.

Section Th.
Context (mt : text -> text -> bool) (ix : text -> option nat) (hd : text -> cst -> bool) (all : list step).
Hypothesis Hmean : meaning mt ix hd all.
Context (after : cst -> text) (nothing : text) (m : bytes) (ps : list bytes) (dom : cst -> Prop).
Hypothesis Hm : stage m.
Hypothesis Hps : Forall piece ps.
Hypothesis Hda : forall w es, dom (CArr w es) -> Forall (fun e => dom (i_val e)) es.
Hypothesis Hdo : forall w ms, dom (CObj w ms) -> Forall (fun m => dom (m_val m)) ms.
Hypothesis Hafter : forall e, wf e -> dom e -> jget (render e) (dotted (m :: ps)) (after e).
Hypothesis Hnothing : jget [] (dotted (m :: ps)) nothing.
Notation oks := (oks all).
Notation okst := (okst all).
Notation texts ss := (map step_text ss).
Notation eval := (eval_then mt ix hd after nothing).
Notation res ss c := (handed nothing (eval ss c)).

(** The texts of the steps, followed by those behind the dot. *)
Definition full (ss : list step) : list bytes := texts ss ++ m :: ps.
Definition fullp (s : step) (ss : list step) : path := cpath (step_text s) 46 (dotted (full ss)).
Lemma full_ne ss : full ss <> [].
Proof using. unfold full. destruct (texts ss); discriminate. Qed.
Lemma full_path1 s ss : path1 (step_text s) (full ss) = fullp s ss.
Proof using. unfold fullp, path1. pose proof (full_ne ss). destruct (full ss); [congruence | reflexivity]. Qed.
Lemma full_next s ss : okst s -> pnext (dotted (full (s :: ss))) = fullp s ss.
Proof using. intros [Hs _]. unfold full. cbn [map app]. rewrite pnext_path1 by (apply step_any; auto). apply full_path1. Qed.
Lemma full_pieces ss : oks ss -> Forall piece (full ss).
Proof using Hm Hps.
  intros H. apply Forall_app. split; [apply pieces_any; eapply okst_any; eauto|]. constructor; auto. right; auto.
Qed.
Lemma full_group s ss : oks ss -> exists r, next_group (fullp s ss) = Ok (dotted (full ss), r) /\ p_more r = false.
Proof using Hm Hps.
  intros H. rewrite next_group_spec. change (p_sep (fullp s ss)) with 46%N. cbn [N.eqb Pos.eqb].
  change (p_extra (fullp s ss)) with (dotted (full ss)).
  destruct (group_pieces (full ss) [] 0%N [] (full_pieces ss H) (full_ne ss) end_rest ltac:(discriminate)) as (r & Er & Hr & Hx).
  rewrite app_nil_r in Er. rewrite Er. exists r. split; [reflexivity|]. unfold p_more. rewrite Hr. reflexivity.
Qed.

Definition G (n : nat) (r : text) (v : value) (p : path) : Prop :=
  v_exists v = true /\
  ((v_json v = r /\ p_more p = false) \/
   (exists d i ss, v = tval d i /\ wf d /\ dom d /\ oks ss /\ length ss < n /\
      p_more p = true /\ p_extra p = dotted (full ss) /\ r = res ss d)).
Definition out (n : nat) (o : option text) (v : value) (p : path) : Prop :=
  match o with
  | Some r => G n r v p
  | None => v = value_default /\ exists ss, oks ss /\ p_more p = true /\ p_extra p = dotted (full ss)
  end.
Lemma G_weak n k r v p : n <= k -> G n r v p -> G k r v p.
Proof using.
  intros Hn [H [H'|(d & i & ss & H1 & H2 & H3 & H4 & H5 & H6)]]; split; auto. right. exists d, i, ss.
  split; auto. split; auto. split; auto. split; auto. split; [eapply Nat.lt_le_trans; eauto | auto].
Qed.
Lemma G_rest n d i s ss : wf d -> dom d -> oks ss -> length ss < n -> G n (res ss d) (tval d i) (fullp s ss).
Proof using.
  intros Hd Hdd Hss Hn. split; [apply tval_exists; auto|]. right. exists d, i, ss.
  do 5 (split; [auto|]). auto.
Qed.
Lemma out_none s ss n : oks ss -> out n None value_default (fullp s ss).
Proof using. intros H. split; auto. exists ss. split; auto. Qed.

Definition get_ok (ss : list step) : Prop := forall c, wf c -> dom c -> jget (render c) (dotted (full ss)) (res ss c).

Lemma find_dom (f : cst -> bool) es d : Forall (fun e => dom (i_val e)) es -> find f (map i_val es) = Some d -> dom d.
Proof using.
  intros H E. apply find_some in E as [E _]. apply in_map_iff in E as (e & <- & He). exact (proj1 (Forall_forall _ _) H e He).
Qed.

Lemma larr_then json w es r s ss : wf (CArr w es) -> dom (CArr w es) -> okst s -> oks ss -> get_ok ss ->
  exists v p, larr get json false (render (CArr w es) ++ r) (fullp s ss) = Ok (v, p) /\
    out (S (length ss)) (eval (s :: ss) (CArr w es)) v p.
Proof using Hmean Hm Hps Hda.
  clear Hafter Hnothing Hdo. intros Hc Hdc Hs Hss Hget. pose proof (elems_tval json w es r Hc) as HF. pose proof (wf_items _ _ Hc) as Hwi.
  pose proof (Hda _ _ Hdc) as Hde.
  assert (Hin : forall e, In e es -> wf (i_val e)) by (intros e He; apply wf_ival; apply (proj1 (Forall_forall _ _) Hwi); auto).
  assert (Hdin : forall e, In e es -> dom (i_val e)) by (intros e He; exact (proj1 (Forall_forall _ _) Hde e He)).
  assert (Hno : out (S (length ss)) None value_default (fullp s ss)) by (apply out_none; auto).
  destruct (full_group s ss Hss) as (rp & Eg & Hmr).
  destruct s as [k| |q [|]].
  - (* index *)
    destruct Hs as [Hk Hki].
    assert (E : larr get json false (render (CArr w es) ++ r) (fullp (Name k) ss) =
      Ok (if (0 <=? comp_index k)%Z then nth (Z.to_nat (comp_index k)) (elems json false (render (CArr w es) ++ r)) value_default
          else value_default, fullp (Name k) ss)).
    { unfold larr. change (p_comp (fullp (Name k) ss)) with k. cbv zeta.
      destruct k as [|x k]; [reflexivity|]. destruct Hk as [_ (_ & Hh & _)]. replace (x =? 35)%N with false by lia. reflexivity. }
    rewrite E. do 2 eexists. split; [reflexivity|]. cbn [eval_then].
    pose proof (fun n => mn_index _ _ _ _ Hmean k n Hki) as Hi.
    destruct (ix k) as [n|] eqn:En.
    + assert (Ek : comp_index k = Z.of_nat n) by (apply index_key_iff, Hi; auto). rewrite Ek.
      replace (0 <=? Z.of_nat n)%Z with true by lia. rewrite Nat2Z.id.
      destruct (nth_error es n) as [e|] eqn:Ee.
      * destruct (Forall2_nth_some _ _ _ _ _ value_default HF Ee) as (i & ->). pose proof (nth_error_In _ _ Ee) as HI.
        apply (G_rest (S (length ss)) (i_val e) i (Name k) ss); auto.
      * rewrite (Forall2_nth_none _ _ _ _ value_default HF) by (apply nth_error_None; auto). exact Hno.
    + destruct (Z.leb_spec 0 (comp_index k)) as [Hz|Hz]; [|exact Hno].
      assert (Ek : index_key k (Z.to_nat (comp_index k))) by (apply index_key_iff; lia). apply Hi in Ek. discriminate.
  - (* hash *)
    unfold larr. change (p_comp (fullp Hash ss)) with [35%N]. change (p_sep (fullp Hash ss)) with 46%N. cbn [N.eqb Pos.eqb].
    rewrite Eg. cbn [bind].
    destruct (listed_push (fun v => x <- v_get_with get v (dotted (full ss)) ;; Ok (Some x)) (fun _ => true)
      (fun e => res ss e) json w es r Hc) as (st & Est & Hsh).
    { intros e i He. destruct (jget_tval (i_val e) i (dotted (full ss)) _ (Hin e He) (Hget _ (Hin e He) (Hdin e He))) as (v & -> & Hv). cbn [bind].
      eexists. split; [reflexivity|]. eauto. }
    rewrite Est. cbn [bind]. do 2 eexists. split; [reflexivity|]. cbn [eval_then].
    assert (Ef : filter (fun _ : cst => true) (map i_val es) = map i_val es) by (clear; induction es; cbn; congruence).
    rewrite Ef in Hsh. split; [rewrite exists_json, Hsh; reflexivity|]. left. auto.
  - (* all matches *)
    destruct (qparts q) as [[lh op] rh] eqn:Ep. unfold fullp in Eg |- *. cbn [step_text] in Eg |- *. rewrite larr_all, Ep. cbn [bind].
    rewrite Eg. cbn [bind N.eqb Pos.eqb].
    destruct (listed_push (fun v => m <- elem_matches get v lh op rh ;;
        (if m : bool then x <- v_get_with get v (dotted (full ss)) ;; Ok (Some x) else Ok None)) (hd q)
      (fun e => res ss e) json w es r Hc) as (st & Est & Hsh).
    { intros e i He. rewrite (holds_elem mt ix hd all Hmean q true (i_val e) i lh op rh Hs (Hin e He) Ep). cbn [bind].
      destruct (hd q (i_val e)); [|eexists; split; reflexivity].
      destruct (jget_tval (i_val e) i (dotted (full ss)) _ (Hin e He) (Hget _ (Hin e He) (Hdin e He))) as (v & -> & Hv). cbn [bind].
      eexists. split; [reflexivity|]. eauto. }
    rewrite Est. cbn [bind]. do 2 eexists. split; [reflexivity|]. cbn [eval_then].
    split; [rewrite exists_json, Hsh; reflexivity|]. left. auto.
  - (* first match *)
    destruct (qparts q) as [[lh op] rh] eqn:Ep.
    assert (E : larr get json false (render (CArr w es) ++ r) (fullp (Query q false) ss) =
      (v <- find_r (fun v => elem_matches get v lh op rh) (elems json false (render (CArr w es) ++ r)) ;; Ok (v, fullp (Query q false) ss))).
    { unfold fullp. cbn [step_text]. rewrite larr_one, Ep. reflexivity. }
    rewrite E. pose proof (find_elems mt ix hd all Hmean q false es _ lh op rh Hs Ep Hwi HF) as Hf. cbn [eval_then].
    destruct (find (hd q) (map i_val es)) as [d|] eqn:Efd.
    + destruct Hf as (i & -> & Hd). cbn [bind]. do 2 eexists. split; [reflexivity|].
      apply (G_rest (S (length ss)) d i (Query q false) ss); auto. eapply find_dom; eauto.
    + rewrite Hf. cbn [bind]. do 2 eexists. split; [reflexivity|]. exact Hno.
Qed.

Lemma stage_mod : is_modifier (pnext (dotted (m :: ps))) || is_multipath (pnext (dotted (m :: ps))) = true.
Proof using Hm.
  clear Hps Hafter Hnothing Hda Hdo. destruct (stage_head m Hm) as (c & t & -> & Hc).
  assert (E : exists tail s rest, dotted ((c :: t) :: ps) = (c :: t) ++ tail /\ rest_end tail s rest).
  { destruct ps as [|p2 ps2]; [exists [], 0%N, []; split; [cbn [dotted]; rewrite app_nil_r; reflexivity | apply end_rest]|].
    rewrite dotted_cons by discriminate. exists (46%N :: dotted (p2 :: ps2)), 46%N, (dotted (p2 :: ps2)). split; auto. apply sep_rest. reflexivity. }
  destruct E as (tail & s & rest & -> & Hr). destruct (stage_next (c :: t) tail s rest Hm Hr) as (E1 & _ & _).
  unfold is_modifier, is_multipath. rewrite E1. cbn [nth_error]. destruct Hc as [->|[->| ->]]; reflexivity.
Qed.

Lemma lobj_then : forall ss s w ms r json f, okst s -> oks ss -> wf (CObj w ms) -> dom (CObj w ms) ->
  suf (render (CObj w ms) ++ r) json -> length ss < f ->
  (forall ss', length ss' < length ss -> oks ss' -> get_ok ss') ->
  exists v p, lobj f get json (render (CObj w ms) ++ r) (fullp s ss) = Ok (v, p) /\
    out (S (length ss)) (eval (s :: ss) (CObj w ms)) v p.
Proof using Hmean Hm Hps Hda Hdo.
  clear Hafter Hnothing. induction ss as [|s2 ss IH]; intros s w ms r json f Hs Hss Hc Hdc Hsuf Hf Hget;
    (destruct f as [|f]; [lia|]); inversion Hc as [| | | | | |? ? Hw Hms]; subst; rewrite lobj_render by auto;
    rewrite <- (lloop_skips _ _ _ w) by (apply ws_plain_skip; auto);
    rewrite <- (lloop_skip _ _ _ 123%N) by discriminate;
    assert (Er : 123%N :: w ++ commas (map (render_memb render) ms) ++ 125%N :: r = render (CObj w ms) ++ r) by (cbn [render]; apps; reflexivity);
    rewrite Er.
  - set (p := fullp s []).
    assert (Hsq : forall l, lsub_of f get json p l = Ok LSquash).
    { intros l. unfold lsub_of. cbv zeta. change (p_extra p) with (dotted (m :: ps)). rewrite stage_mod. reflexivity. }
    assert (HS := scan_spec (lsub_of f get json p) json p (hits mt s) true (eval []) after nothing (G 1) dom
      ltac:(intros x Hx; eapply hits_match; eauto) Hda Hdo
      ltac:(discriminate) (fun _ _ => Hsq)
      ltac:(intros c i _ Hwc Hdd; exact (G_rest 1 c i s [] Hwc Hdd (oks_nil all) ltac:(cbn; lia)))
      ltac:(discriminate) ltac:(discriminate) (CObj w ms) Hc Hdc eq_refl r Hsuf).
    change (eval [s] (CObj w ms)) with
      (match scan_with (hits mt s) true (eval []) after nothing (CObj w ms) with Found r => Some r | _ => None end).
    assert (Hx : sees (lsub_of f get json p) json p (G 1) Stop (render (CObj w ms) ++ r) r ->
      exists v p0, lloop (lsub_of f get json p) json (render (CObj w ms) ++ r) p = Ok (v, p0) /\ out 1 None v p0).
    { intros E. cbn [sees] in E. rewrite E. do 2 eexists. split; [reflexivity|]. apply out_none, oks_nil. }
    destruct (scan_with (hits mt s) true (eval []) after nothing (CObj w ms)) as [ro| |] eqn:Es; [exact HS | exact (Hx HS) |].
    exfalso. clear -Es. rewrite scan_obj in Es. induction ms as [|[a k b c v d] ms IH]; [discriminate|]. cbn [smembers] in Es.
    destruct (hits _ _ _); [discriminate | auto].
  - set (p := fullp s (s2 :: ss)) in *. destruct (oks_cons _ _ _ Hss) as [Hs2 Hss'].
    assert (Hsub : forall c r, wf c -> dom c -> is_container c = true -> follow r -> suf (render c ++ r) json ->
      match eval (s2 :: ss) c with
      | Some ro => exists v p', lsub_of f get json p (render c ++ r) = Ok (LReturn v p') /\ G (S (S (length ss))) ro v p'
      | None => lsub_of f get json p (render c ++ r) = Ok LNone
      end).
    { intros c r' Hwc Hdd Hco Hr' Hs'. unfold lsub_of. cbv zeta. change (p_extra p) with (dotted (full (s2 :: ss))).
      rewrite full_next by auto.
      assert (Hmod : is_modifier (fullp s2 ss) || is_multipath (fullp s2 ss) = false).
      { unfold fullp. destruct (any_not_mod (step_text s2) 46%N (dotted (full ss)) ltac:(apply step_any; apply Hs2)) as [-> ->]. reflexivity. }
      rewrite Hmod.
      assert (Hx : exists v p', (match render c ++ r' with
                 | x :: _ => if (x =? 123)%N then lobj f get json (render c ++ r') (fullp s2 ss)
                             else larr get json false (render c ++ r') (fullp s2 ss)
                 | [] => Err EPanic
                 end) = Ok (v, p') /\ out (S (length ss)) (eval (s2 :: ss) c) v p').
      { destruct c as [ | | |nn|bb|w' es'|w' ms']; try discriminate.
        - exact (larr_then json w' es' r' s2 ss Hwc Hdd Hs2 Hss' (Hget ss ltac:(cbn [length]; lia) Hss')).
        - exact (IH s2 w' ms' r' json f Hs2 Hss' Hwc Hdd Hs' ltac:(cbn [length] in Hf; lia)
            (fun ss' Hl => Hget ss' ltac:(cbn [length]; lia))). }
      destruct Hx as (v & p' & -> & Ho). cbn [bind]. destruct (eval (s2 :: ss) c) as [ro|]; cbn [out] in Ho.
      - destruct Ho as [Hv Ho]. rewrite Hv. do 2 eexists. split; [reflexivity|]. apply (G_weak (S (length ss))); [lia|]. split; auto.
      - destruct Ho as [-> _]. reflexivity. }
    assert (HS := scan_spec (lsub_of f get json p) json p (hits mt s) false (eval (s2 :: ss)) after nothing (G (S (S (length ss)))) dom
      ltac:(intros x Hx; eapply hits_match; eauto) Hda Hdo
      (fun _ => eq_refl) ltac:(discriminate) ltac:(discriminate)
      ltac:(intros c i _ Hwc Hdd Hco; pose proof (G_rest (S (S (length ss))) c i s (s2 :: ss) Hwc Hdd Hss ltac:(cbn; lia)) as HG;
            destruct c; try discriminate; exact HG)
      ltac:(intros _; exact Hsub) (CObj w ms) Hc Hdc eq_refl r Hsuf).
    change (eval (s :: s2 :: ss) (CObj w ms)) with
      (match scan_with (hits mt s) false (eval (s2 :: ss)) after nothing (CObj w ms) with Found r => Some r | _ => None end).
    assert (Hx : lloop (lsub_of f get json p) json (render (CObj w ms) ++ r) p = Ok (value_default, p) ->
      exists v p0, lloop (lsub_of f get json p) json (render (CObj w ms) ++ r) p = Ok (v, p0) /\ out (S (length (s2 :: ss))) None v p0).
    { intros E. rewrite E. do 2 eexists. split; [reflexivity|]. apply out_none; auto. }
    destruct (scan_with (hits mt s) false (eval (s2 :: ss)) after nothing (CObj w ms)) as [ro| |] eqn:Es; [exact HS | exact (Hx HS) |].
    exfalso. clear -Es. rewrite scan_obj in Es. induction ms as [|[a k b c v d] ms IH]; [discriminate|]. cbn [smembers] in Es.
    destruct (hits _ _ _); [|auto]. destruct v; try discriminate; destruct (eval (s2 :: ss) _); try discriminate;
      destruct (scan_with _ _ _ _ _ _); try discriminate; auto.
Qed.

(* ---------- get ---------- *)

Lemma stage_dotted : exists x y, dotted (m :: ps) = x :: y /\ x <> 46%N.
Proof using Hm.
  clear Hps Hafter Hnothing Hda Hdo. destruct (stage_head m Hm) as (c & t & -> & Hc). destruct ps; [|rewrite dotted_cons by discriminate]; cbn [dotted app];
    do 2 eexists; (split; [reflexivity | lia]).
Qed.
Lemma split_full s ss : oks (s :: ss) -> split_lines (dotted (full (s :: ss))) = (false, dotted (full (s :: ss))).
Proof using Hm.
  clear Hps Hafter Hnothing Hda Hdo. intros [H [Ha _]]. inversion H as [|? ? [Hs _] Hss]; subst. pose proof (step_any s Hs) as Hc.
  unfold full. cbn [map app]. fold (full ss). rewrite dotted_cons by apply full_ne.
  destruct (step_text s) as [|c k] eqn:E; [|apply any_split; [exact Hc | discriminate]].
  assert (Hd : exists x y, dotted (full ss) = x :: y /\ x <> 46%N).
  { destruct ss as [|s2 ss]; [apply stage_dotted|].
    specialize (Ha eq_refl). inversion Hss as [|? ? [Hs2 _] _]; subst. pose proof (step_any s2 Hs2) as Hc2.
    assert (Hx : exists x y, step_text s2 = x :: y /\ x <> 46%N).
    { destruct (step_text s2) as [|x y] eqn:E2; [congruence|]. exists x, y. split; auto.
      destruct Hc2 as [[Hb _]|[E3|(q & al & _ & E3)]]; [|injection E3 as -> _; discriminate|injection E3 as -> _; discriminate].
      inversion Hb as [|? ? (H1 & _) Ht|]; subst; [auto | discriminate]. }
    destruct Hx as (x & y & Ex & Hx). unfold full. cbn [map app]. rewrite dotted_cons by apply full_ne. rewrite Ex. cbn [app]. eauto. }
  destruct Hd as (x & y & -> & Hx). cbn [app split_lines]. replace (x =? 46)%N with false by lia. rewrite andb_false_r. reflexivity.
Qed.
Lemma get_full json s ss : oks (s :: ss) ->
  get json (dotted (full (s :: ss))) =
    ('(res, p) <- lstart get json (fullp s ss) ;; if negb (p_more p) then Ok res else v_get res (p_extra p)).
Proof using Hm.
  intros H. rewrite get_eq, get_body_spec, split_full by auto. cbv zeta. unfold lget_first.
  destruct (oks_cons _ _ _ H) as [Hs _]. rewrite full_next by auto. pose proof (step_any s (proj1 Hs)) as Hc.
  unfold fullp. destruct (any_not_mod (step_text s) 46%N (dotted (full ss)) Hc) as [-> ->]. reflexivity.
Qed.
Lemma get_nowhere : forall ss, oks ss -> jget [] (dotted (full ss)) nothing.
Proof using Hm Hnothing.
  induction ss as [|s ss IH]; intros H; [exact Hnothing|]. unfold jget. rewrite (get_full [] s ss H). unfold lstart. cbn [dropw bind].
  change (negb (p_more (fullp s ss))) with false. cbv match. apply jget_default, IH. apply (oks_cons _ _ _ H).
Qed.

Lemma finish_then json s ss o : oks (s :: ss) ->
  (forall ss', length ss' < length (s :: ss) -> oks ss' -> get_ok ss') ->
  (exists v p, lstart get json (fullp s ss) = Ok (v, p) /\ out (S (length ss)) o v p) ->
  jget json (dotted (full (s :: ss))) (handed nothing o).
Proof using Hm Hnothing.
  intros Hss Hget Hout. unfold jget. rewrite (get_full json s ss Hss).
  destruct Hout as (v & p & -> & Hout). cbn [bind]. destruct o as [ro|]; cbn [out handed] in *.
  - destruct Hout as [Hv [(Hd & Hmr)|(d & i & ss' & -> & Hd & Hdd & Hok & Hl & E1 & E2 & ->)]].
    + rewrite Hmr. cbn [negb]. eauto.
    + rewrite E1, E2. cbn [negb]. unfold v_get. apply jget_tval; auto. apply Hget; auto.
  - destruct Hout as [-> (ss' & Hok & -> & ->)]. cbn [negb]. apply jget_default, get_nowhere, Hok.
Qed.

Lemma get_then : forall n ss c w1 w2, length ss <= n -> oks ss -> ss <> [] -> ws w1 -> wf c -> dom c ->
  jget (w1 ++ render c ++ w2) (dotted (full ss)) (res ss c).
Proof using Hmean Hm Hps Hda Hdo Hafter Hnothing.
  induction n as [n IHn] using lt_wf_ind. intros ss c w1 w2 Hn Hss Hne Hw1 Hc Hdc.
  destruct ss as [|s ss]; [congruence|]. destruct (oks_cons _ _ _ Hss) as [Hs Hss'].
  assert (Hget : forall ss', length ss' < length (s :: ss) -> oks ss' -> get_ok ss').
  { intros ss' Hl Hok d Hd Hdd. destruct ss' as [|s' ss']; [exact (Hafter d Hd Hdd)|].
    pose proof (IHn (length (s' :: ss')) ltac:(lia) (s' :: ss') d [] [] (le_n _) Hok ltac:(discriminate) ltac:(constructor) Hd Hdd) as H.
    cbn [app] in H. rewrite app_nil_r in H. exact H. }
  fold (doc w1 c w2). apply (finish_then (doc w1 c w2) s ss (eval (s :: ss) c) Hss Hget).
  assert (Hsc : is_container c = false -> exists v p, lstart get (doc w1 c w2) (fullp s ss) = Ok (v, p) /\ out (S (length ss)) (eval (s :: ss) c) v p).
  { intros Eco. rewrite lstart_scalar by auto. do 2 eexists. split; [reflexivity|].
    assert (Ee : eval (s :: ss) c = None) by (destruct c; try discriminate; reflexivity). rewrite Ee. apply out_none; auto. }
  destruct c as [ | | |nn|bb|w es|w ms]; try (apply Hsc; reflexivity).
  - rewrite lstart_arr by auto. apply larr_then; auto.
  - rewrite lstart_obj by auto. apply lobj_then; auto using suf_doc.
    + change (p_extra (fullp s ss)) with (dotted (full ss)). pose proof (dotted_len (full ss)) as Hl. unfold full in Hl at 1.
      rewrite app_length, map_length in Hl. cbn [length] in Hl. lia.
    + intros ss' Hl. apply Hget. cbn [length]. lia.
Qed.
End Th.

Lemma part_elem w es x c : part_of (CArr w es) c -> In x es -> part_of (i_val x) c.
Proof.
  intros H Hx. remember (CArr w es) as a eqn:Ea. induction H as [|w' es' y Hy _ IH|w' ms' y Hy _ IH]; subst.
  - apply (po_element _ w es x Hx). apply po_self.
  - exact (po_element _ w' es' y Hy IH).
  - exact (po_member _ w' ms' y Hy IH).
Qed.
Lemma part_memb w ms x c : part_of (CObj w ms) c -> In x ms -> part_of (m_val x) c.
Proof.
  intros H Hx. remember (CObj w ms) as a eqn:Ea. induction H as [|w' es' y Hy _ IH|w' ms' y Hy _ IH]; subst.
  - apply (po_member _ w ms x Hx). apply po_self.
  - exact (po_element _ w' es' y Hy IH).
  - exact (po_member _ w' ms' y Hy IH).
Qed.

Theorem get_result_then mt ix hd after nothing ss m ps c w1 w2 :
  meaning mt ix hd ss -> steps_ok ss -> ss <> [] -> stage m -> Forall piece ps -> ws w1 -> wf c ->
  (forall e, wf e -> part_of e c -> exists v, get (render e) (dotted (m :: ps)) = Ok v /\ v_json v = after e) ->
  (exists v, get [] (dotted (m :: ps)) = Ok v /\ v_json v = nothing) ->
  exists v, get (w1 ++ render c ++ w2) (dotted (map step_text ss ++ m :: ps)) = Ok v /\ v_json v = result_then mt ix hd after nothing ss c.
Proof.
  intros Hmean [Hok Hap] Hne Hm Hps Hw1 Hc Ha Hn.
  apply (get_then mt ix hd ss Hmean after nothing m ps (fun e => part_of e c) Hm Hps) with (n := length ss); auto.
  - intros w es H. apply Forall_forall. intros x Hx. eapply part_elem; eauto.
  - intros w ms H. apply Forall_forall. intros x Hx. eapply part_memb; eauto.
  - split; auto. apply Forall_forall. intros s Hs. split; auto. apply (proj1 (Forall_forall _ _) Hok); auto.
  - apply po_self.
Qed.
(** In the empty text. *)
Theorem get_nowhere_then nothing ss m ps : steps_ok ss -> stage m ->
  (exists v, get [] (dotted (m :: ps)) = Ok v /\ v_json v = nothing) ->
  exists v, get [] (dotted (map step_text ss ++ m :: ps)) = Ok v /\ v_json v = nothing.
Proof.
  intros [Hok Hap] Hm Hn. apply (get_nowhere ss nothing m ps Hm Hn ss). split; auto. apply Forall_forall. intros s Hs. split; auto.
  apply (proj1 (Forall_forall _ _) Hok); auto.
Qed.

(* ---------- every element of an array ---------- *)

Lemma led_dotted ss b : ss <> [] -> led b -> exists m ps, stage m /\ Forall piece ps /\ b = dotted (m :: ps) /\
  dotted (map step_text ss) ++ 46%N :: b = dotted (map step_text ss ++ m :: ps).
Proof.
  intros Hn (m & ps & Hm & Hps & ->). exists m, ps. split; auto. split; auto. split; auto.
  symmetry. apply dotted_app; [destruct ss; [congruence | discriminate] | discriminate].
Qed.

Theorem get_each b after w1 w es w2 : led b -> ws w1 -> wf (CArr w es) ->
  (forall x, In x es -> exists v, get (render (i_val x)) b = Ok v /\ v_json v = after (i_val x)) ->
  exists v, get (w1 ++ render (CArr w es) ++ w2) (35%N :: 46%N :: b) = Ok v /\ v_json v = listed (map after (map i_val es)).
Proof.
  intros Hb Hw Hc Ha. destruct (led_dotted [Hash] b ltac:(discriminate) Hb) as (m & ps & Hm & Hps & -> & E).
  change (35%N :: 46%N :: dotted (m :: ps)) with (dotted (map step_text [Hash]) ++ 46%N :: dotted (m :: ps)). rewrite E. clear E.
  assert (Hok : oks [Hash] [Hash]) by (split; [constructor; [split; [exact I | left; reflexivity] | constructor] | cbn; split; [discriminate | auto]]).
  pose proof (get_full [Hash] m ps Hm (w1 ++ render (CArr w es) ++ w2) Hash [] Hok) as Eg. unfold full in Eg. rewrite Eg. clear Eg.
  fold (doc w1 (CArr w es) w2). rewrite lstart_arr by auto.
  destruct (full_group [Hash] m ps Hm Hps Hash [] (oks_nil _)) as (rp & Er & Hr).
  unfold larr. change (p_comp (fullp m ps Hash [])) with [35%N]. change (p_sep (fullp m ps Hash [])) with 46%N. cbn [N.eqb Pos.eqb].
  rewrite Er. cbn [bind].
  destruct (listed_push (fun v => x <- v_get_with get v (dotted (full m ps [])) ;; Ok (Some x)) (fun _ => true)
    after (doc w1 (CArr w es) w2) w es w2 Hc) as (st & Est & Hsh).
  { intros e i He. destruct (jget_tval (i_val e) i (dotted (full m ps [])) (after (i_val e))) as (v & -> & Hv); [|exact (Ha e He)|].
    - apply wf_ival. exact (proj1 (Forall_forall _ _) (wf_items _ _ Hc) e He).
    - cbn [bind]. eexists. split; [reflexivity|]. eauto. }
  rewrite Est. cbn [bind]. rewrite Hr. cbn [negb]. eexists. split; [reflexivity|]. rewrite Hsh.
  assert (Ef : filter (fun _ : cst => true) (map i_val es) = map i_val es) by (clear; induction es; cbn; congruence). rewrite Ef. reflexivity.
Qed.

Theorem get_matches q b holds after w1 w es w2 : balanced q -> led b -> ws w1 -> wf (CArr w es) ->
  (forall x, In x es -> q_holds (i_val x) q (holds (i_val x))) ->
  (forall x, In x es -> holds (i_val x) = true -> exists v, get (render (i_val x)) b = Ok v /\ v_json v = after (i_val x)) ->
  exists v, get (w1 ++ render (CArr w es) ++ w2) (qcomp q true ++ 46%N :: b) = Ok v /\
    v_json v = listed (map after (filter holds (map i_val es))).
Proof.
  intros Hq Hb Hw Hc Hh Ha. destruct (led_dotted [Query q true] b ltac:(discriminate) Hb) as (m & ps & Hm & Hps & -> & E).
  set (s := Query q true) in *. change (qcomp q true) with (dotted (map step_text [s])). rewrite E. clear E.
  assert (Hok : oks [s] [s]) by (split; [constructor; [split; [exact Hq | left; reflexivity] | constructor] | cbn; split; [discriminate | auto]]).
  pose proof (get_full [s] m ps Hm (w1 ++ render (CArr w es) ++ w2) s [] Hok) as Eg. unfold full in Eg. rewrite Eg. clear Eg.
  fold (doc w1 (CArr w es) w2). rewrite lstart_arr by auto.
  destruct (full_group [s] m ps Hm Hps s [] (oks_nil _)) as (rp & Er & Hr).
  destruct (qparts q) as [[lh op] rh] eqn:Ep. unfold fullp in Er |- *. cbn [step_text s] in Er |- *. rewrite larr_all, Ep. cbn [bind].
  rewrite Er. cbn [bind N.eqb Pos.eqb].
  destruct (listed_push (fun v => y <- elem_matches get v lh op rh ;;
      (if y : bool then x <- v_get_with get v (dotted (full m ps [])) ;; Ok (Some x) else Ok None)) holds
    after (doc w1 (CArr w es) w2) w es w2 Hc) as (st & Est & Hsh).
  { intros e i He. assert (Hwe : wf (i_val e)) by (apply wf_ival; exact (proj1 (Forall_forall _ _) (wf_items _ _ Hc) e He)).
    assert (Em : elem_matches get (tval (i_val e) i) lh op rh = Ok (holds (i_val e))).
    { rewrite (elem_matches_ix get (i_val e) i None) by auto. pose proof (Hh e He) as Hx. apply q_holds_ematch in Hx; auto.
      unfold ematch in Hx. rewrite Ep in Hx. exact Hx. }
    rewrite Em. cbn [bind]. destruct (holds (i_val e)) eqn:Eh; [|eexists; split; reflexivity].
    destruct (jget_tval (i_val e) i (dotted (full m ps [])) (after (i_val e)) Hwe (Ha e He Eh)) as (v & -> & Hv). cbn [bind].
    eexists. split; [reflexivity|]. eauto. }
  rewrite Est. cbn [bind]. rewrite Hr. cbn [negb]. eexists. split; [reflexivity|]. exact Hsh.
Qed.

(* ---------- the statements with the path as it is written ---------- *)

Theorem get_led mt ix hd after nothing ss b c w1 w2 :
  meaning mt ix hd ss -> steps_ok ss -> ss <> [] -> led b -> ws w1 -> wf c ->
  (forall e, wf e -> part_of e c -> exists v, get (render e) b = Ok v /\ v_json v = after e) ->
  (exists v, get [] b = Ok v /\ v_json v = nothing) ->
  exists v, get (w1 ++ render c ++ w2) (dotted (map step_text ss) ++ 46%N :: b) = Ok v /\ v_json v = result_then mt ix hd after nothing ss c.
Proof.
  intros Hm Hok Hne Hb Hw Hc Ha Hn. destruct (led_dotted ss b Hne Hb) as (m & ps & Hst & Hps & -> & ->). apply get_result_then; auto.
Qed.
Theorem get_led_nowhere nothing ss b : steps_ok ss -> ss <> [] -> led b ->
  (exists v, get [] b = Ok v /\ v_json v = nothing) ->
  exists v, get [] (dotted (map step_text ss) ++ 46%N :: b) = Ok v /\ v_json v = nothing.
Proof.
  intros Hok Hne Hb Hn. destruct (led_dotted ss b Hne Hb) as (m & ps & Hst & Hps & -> & ->). apply get_nowhere_then; auto.
Qed.

(** The parameters exist. *)
Definition text_at (b json : bytes) : text := match get json b with Ok v => v_json v | Err _ => [] end.
Definition after0 (b : bytes) (e : cst) : text := text_at b (render e).
Lemma after0_ok b json : calm b -> exists v, get json b = Ok v /\ v_json v = text_at b json.
Proof. intros H. destruct (get_total json b H) as (v & E). exists v. split; auto. unfold text_at. rewrite E. reflexivity. Qed.

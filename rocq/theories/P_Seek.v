(** Components at the start of any path: [S_Means.seek] computes where they lead. *)
From Verif Require Import P_Base P_Json P_Valid P_ValidSpec P_Str P_Glob P_Scan P_Each P_Doc P_Path P_LGet P_Total P_Parts P_Ext P_Value P_Num P_Key P_Find
  P_GetDoc P_GetArr P_Pipe P_Stream P_Follow P_Mod P_Multi P_Compose P_Mixed P_Eval P_ModDoc P_Bad P_Then P_First M_Util M_Num M_Scan M_Value M_Path M_Get
  S_Json S_Str S_Get S_Path S_Query S_Follow S_Mod S_ModText S_Multi S_Compose S_Eval S_Then S_Bad S_Means.

(* ---------- the first piece ---------- *)

Lemma first_dots x : first (46%N :: x) [] (Some (46%N, x)).
Proof. apply (fi_sep []); [left; split; [apply cb_nil | exact I] | left; reflexivity]. Qed.
Lemma spelled_split p ss t : spelled p ss t -> split_lines p = (false, p).
Proof.
  intros H. assert (D : forall x, p <> 46%N :: 46%N :: x).
  { intros x ->. pose proof (first_dots (46%N :: x)) as F.
    inversion H as [p0 k s F0|p0 k s b F0|p0 k s b F0 Hs Hb|p0 k s b ss0 t0 F0 Hs Hd Hb]; subst;
      destruct (first_unique _ _ _ _ _ F F0) as [Ek E]; try discriminate; injection E as E; subst.
    - destruct Hb as (c & y & E & Hc). injection E as <- _. destruct Hc as [|[|]]; discriminate.
    - apply Hd; reflexivity. }
  unfold split_lines. destruct p as [|a [|b x]]; auto.
  destruct ((a =? 46) && (b =? 46))%N eqn:E; auto. apply andb_true_iff in E as [Ea Eb].
  apply N.eqb_eq in Ea. apply N.eqb_eq in Eb. subst. destruct (D x eq_refl).
Qed.
Lemma get_spelled json p ss t : spelled p ss t ->
  get json p = ('(res, pt) <- lstart get json (pnext p) ;; if negb (p_more pt) then Ok res else v_get res (p_extra pt)).
Proof.
  intros H. rewrite get_eq, get_body_spec, (spelled_split _ _ _ H). cbv zeta. unfold lget_first.
  destruct (spelled_first _ _ _ H) as (k & o & s & ss' & F & Hs & _).
  pose proof (comp_not_mod _ _ _ _ F Hs) as Hm. apply orb_false_iff in Hm as [-> ->]. reflexivity.
Qed.
Lemma spelled_len p ss t : spelled p ss t -> length ss <= S (length p).
Proof.
  induction 1 as [p k s F|p k s b F|p k s b F|p k s b ss t F Hs Hd Hb IH]; cbn [length]; try lia.
  destruct (first_sep _ _ _ _ F) as [_ ->]. rewrite app_length. cbn [length]. lia.
Qed.

(** An element satisfies the query or not, whatever the query is. *)
Lemma q_holds_elem p q al o c b : first p (qcomp q al) o -> wf c -> (q_holds c q b <-> ematch c q = Ok b).
Proof.
  intros F Hc. pose proof (query_alone _ _ _ _ F) as Ea. unfold q_holds. pose proof (wf_arr1 c Hc) as Hw.
  assert (E : get (91%N :: render c ++ [93%N]) (qcomp q false) =
     (m <- ematch c q ;; if m : bool then Ok (tval c (Some 1)) else Ok value_default)).
  { rewrite get_eq, get_body_spec. change (split_lines (qcomp q false)) with (false, qcomp q false). cbv zeta. unfold lget_first.
    rewrite Ea. change (is_modifier (cpath (qcomp q false) 0 [])) with false.
    change (is_multipath (cpath (qcomp q false) 0 [])) with false. cbv match.
    pose proof (lstart_arr get [] [] [Item [] c []] [] (cpath (qcomp q false) 0 []) ltac:(constructor) Hw) as HL.
    unfold doc in HL. cbn [app] in HL. rewrite app_nil_r in HL. fold (arr1 c) in HL. rewrite render_arr1 in HL. rewrite HL.
    rewrite larr_one. unfold ematch. destruct (qparts q) as [[lh op] rh]. cbn [bind].
    pose proof (elems_arr (91%N :: render c ++ [93%N]) [] [Item [] c []] [] Hw) as HE.
    fold (arr1 c) in HE. rewrite app_nil_r, render_arr1 in HE. rewrite HE.
    assert (Hs : map (fval (91%N :: render c ++ [93%N])) (item_sufs [Item [] c []] [93%N]) = [tval c (Some 1)]).
    { cbn [item_sufs map i_val app]. f_equal.
      rewrite fval_render by (auto; right; auto). f_equal. unfold pos. f_equal. cbn [length arr_tail]. lia. }
    rewrite Hs. cbn [find_r].
    rewrite (elem_matches_ix get c (Some 1) None) by auto.
    destruct (elem_matches get (tval c None) lh op rh) as [[]|]; reflexivity. }
  rewrite E. destruct (ematch c q) as [m|e]; cbn [bind].
  - split.
    + intros (v & Hv & Hb). destruct m; injection Hv as <-; rewrite <- Hb; [|reflexivity].
      rewrite tval_exists by auto. reflexivity.
    + intros [= ->]. destruct b; eexists; split; try reflexivity. apply tval_exists; auto.
  - split; [intros (v & Hv & _); discriminate | discriminate].
Qed.

(** The lookup in an array by a query. *)
Lemma larr_query_one json l q p : p_comp p = qcomp q false ->
  larr get json false l p =
    ('(lh, op, rh) <- Ok (qparts q) ;;
     v <- find_r (fun v => elem_matches get v lh op rh) (elems json false l) ;; Ok (v, p)).
Proof.
  intros E. unfold larr. rewrite E. change (qcomp q false) with (35%N :: 40%N :: q ++ [41%N]). cbv match zeta.
  change (35 =? 35)%N with true. cbv match. rewrite last_qcomp. cbn [N.eqb Pos.eqb].
  rewrite query_parts_one. reflexivity.
Qed.
Lemma larr_query_all json l q p : p_comp p = qcomp q true ->
  larr get json false l p =
    ('(lh, op, rh) <- Ok (qparts q) ;;
     '(group, rest) <- next_group p ;;
     st <- push_all (fun v =>
             m <- elem_matches get v lh op rh ;;
             if m : bool then
               if (p_sep p =? 46)%N then x <- v_get_with get v group ;; Ok (Some x)
               else Ok (Some v)
             else Ok None) (elems json false l) ([91%N], 0) ;;
     Ok (mkowned (fst st ++ [93%N]) INFO_ARRAY None, rest)).
Proof.
  intros E. unfold larr. rewrite E. change (qcomp q true) with (35%N :: 40%N :: q ++ [41; 35]%N). cbv match zeta.
  change (35 =? 35)%N with true. cbv match. rewrite last_qcomp_all. cbn [N.eqb Pos.eqb].
  rewrite query_parts_all. reflexivity.
Qed.

Lemma jget_owned x info b r : jget x b r -> exists v, v_get (mkowned x info None) b = Ok v /\ v_json v = r.
Proof.
  intros (v & E & Hv). unfold v_get, v_get_with. cbn [mkowned v_slice v_owned v_index]. rewrite E. cbn [bind].
  eexists. split; [reflexivity|]. rewrite <- Hv. change (v_json (add_index None (json_into_owned v))) with (v_json (json_into_owned v)).
  apply json_into_owned_json. exact (P_ModDoc.get_one _ _ _ E).
Qed.


(* ---------- what becomes of the result ---------- *)

Definition jgoes (t : tail) (o : option found) (r : text) : Prop :=
  match t with
  | Done => r = found_text o
  | Pipe b => jget (found_text o) b r
  | Into b => match o with
              | Some (Text x) => exists g u, grouped b g u /\ match u with None => r = x | Some u => jget x u r end
              | _ => jget (found_text o) b r
              end
  end.
Definition jinside (t : tail) (x y : text) : Prop :=
  match t with Into b => exists g u, grouped b g u /\ jget x g y | _ => y = x end.
Lemma jinside_group t t' r x y : tail_group t t' r -> jinside t x y -> jinside t' x y.
Proof.
  destruct t as [|b|b]; cbn [tail_group].
  - intros [-> _] H; exact H.
  - intros [-> _] H; exact H.
  - intros (g & Hg & ->) (g' & u & Hg' & H). destruct (grouped_unique _ _ _ _ _ Hg Hg') as [<- <-].
    exists g, None. split; auto. eapply grouped_again; eauto.
Qed.
Lemma counting_group t t' r : tail_group t t' r -> counting t' = counting t.
Proof. destruct t; cbn [tail_group]; [intros [-> _]|intros [-> _]|intros (g & _ & ->)]; reflexivity. Qed.

(** What is left of the path, applied to a value. *)
Definition jcont (v : value) (p : path) (r : text) : Prop :=
  if p_more p then exists u, v_get v (p_extra p) = Ok u /\ v_json u = r else v_json v = r.
Definition goal (t : tail) (o : option found) (v : value) (p : path) : Prop := forall r, jgoes t o r -> jcont v p r.
Definition outcome (t : tail) (o : option (option found)) (v : value) (p : path) : Prop :=
  match o with
  | Some fo => v_exists v = true /\ goal t fo v p
  | None => v = value_default /\ goal t None v p
  end.

(** The pipe, if the tail has one. *)
Definition tail_pipe (t : tail) (r : option bytes) : Prop :=
  match t with Done => r = None | Pipe b => r = Some b | Into b => exists g, grouped b g r end.
Definition rest_is (rp : path) (r : option bytes) : Prop :=
  match r with None => p_more rp = false | Some u => p_sep rp = 124%N /\ p_extra rp = u end.
Lemma list_end t r rp x info : tail_pipe t r -> rest_is rp r -> goal t (Some (Text x)) (mkowned x info None) rp.
Proof.
  intros Ht Hr r0 H. unfold jcont. assert (Hm : r <> None -> p_more rp = true).
  { destruct r; [|congruence]. intros _. unfold p_more. destruct Hr as [-> _]. reflexivity. }
  destruct t as [|b|b]; cbn [tail_pipe jgoes found_text] in *.
  - subst r r0. cbn [rest_is] in Hr. rewrite Hr. apply mkowned_json.
  - subst r. rewrite Hm by discriminate. destruct Hr as [_ ->]. apply jget_owned, H.
  - destruct Ht as (g & Hg), H as (g' & u & Hg' & H). destruct (grouped_unique _ _ _ _ _ Hg Hg') as [<- <-].
    destruct r as [u|]; cbn [rest_is] in Hr; [|subst r0; rewrite Hr; apply mkowned_json].
    rewrite Hm by discriminate. destruct Hr as [_ ->]. apply jget_owned, H.
Qed.

Section Sk.
Context (mt : text -> text -> bool) (ix : text -> option nat) (hd : text -> cst -> bool) (all : list step).
Hypothesis Hmean : meaning mt ix hd all.
Context (inner : cst -> text) (inothing : text) (dom : cst -> Prop).
Hypothesis Hda : forall w es, dom (CArr w es) -> Forall (fun e => dom (i_val e)) es.
Hypothesis Hdo : forall w ms, dom (CObj w ms) -> Forall (fun m => dom (m_val m)) ms.
Notation seek b := (seek mt ix hd b inner inothing).
Notation entry := (entry_of inner inothing).

Definition inner_ok (t : tail) : Prop :=
  (forall e, wf e -> dom e -> jinside t (render e) (inner e)) /\ jinside t [] inothing.
Lemma inner_group t t' r : tail_group t t' r -> inner_ok t -> inner_ok t'.
Proof using. intros Ht [H1 H2]. split; [intros e He Hd|]; eapply jinside_group; eauto. Qed.

Lemma hits_spelled p k o s m : first p k o -> comp_step k s -> In s all -> wf_memb m -> kmatch (pnext p) (m_key m) = hits mt s (name_of m).
Proof using Hmean.
  clear Hda Hdo. intros F Hs Hin Hm. rewrite name_of_sdec by auto. apply eq_true_iff_eq. destruct (first_next _ _ _ F) as [Ec _].
  destruct s as [n| |q al].
  - inversion Hs; subst n. cbn [hits]. subst k0. rewrite (kmatch_name _ _ _ _ F) by auto.
    rewrite globm_bare. symmetry. apply (mn_match _ _ _ _ Hmean); auto.
  - unfold kmatch. rewrite (flags_other _ _ _ _ F Hs) by discriminate. rewrite Ec. cbn [hits]. rewrite (step_comp _ _ Hs), beq_eq.
    destruct (list_eq_dec _ _ _); intuition congruence.
  - unfold kmatch. rewrite (flags_other _ _ _ _ F Hs) by discriminate. rewrite Ec. cbn [hits]. rewrite (step_comp _ _ Hs), beq_eq.
    destruct (list_eq_dec _ _ _); intuition congruence.
Qed.
Lemma holds_spelled p q al o e i lh op rh : first p (qcomp q al) o -> In (Query q al) all -> wf e -> qparts q = (lh, op, rh) ->
  elem_matches get (tval e i) lh op rh = Ok (hd q e).
Proof using Hmean.
  clear Hda Hdo. intros F Hin He Eq. rewrite (elem_matches_ix get e i None) by auto.
  pose proof (mn_holds _ _ _ _ Hmean q al e Hin He) as Hh. apply (q_holds_elem _ _ _ _ _ _ F) in Hh; auto. unfold ematch in Hh. rewrite Eq in Hh. exact Hh.
Qed.
Lemma find_spelled p q al o es xs lh op rh : first p (qcomp q al) o -> In (Query q al) all -> qparts q = (lh, op, rh) -> Forall wf_item es ->
  Forall2 (fun e x => exists i, x = tval (i_val e) i) es xs ->
  match find (hd q) (map i_val es) with
  | Some d => exists i, find_r (fun v => elem_matches get v lh op rh) xs = Ok (tval d i) /\ wf d
  | None => find_r (fun v => elem_matches get v lh op rh) xs = Ok value_default
  end.
Proof using Hmean.
  clear Hda Hdo. intros F Hin Ep Hw HF. induction HF as [|e x es xs (i & ->) HF IH]; [reflexivity|].
  inversion Hw as [|? ? He Hes]; subst. pose proof (wf_ival _ He) as Hwe. cbn [map find find_r].
  rewrite (holds_spelled p q al o (i_val e) i lh op rh F Hin Hwe Ep). cbn [bind]. destruct (hd q (i_val e)); [eauto|]. apply IH; auto.
Qed.

(* ---------- a value that is found belongs to the document ---------- *)

Definition inval (o : option found) : Prop := match o with Some (Value d) => wf d /\ dom d | _ => True end.
Lemma scan_inval hit fin below : (forall c, wf c -> dom c -> inval (seen (below c))) ->
  forall c, wf c -> dom c -> match scan_with hit fin below (fun v => Some (Value v)) None c with Found r => inval r | _ => True end.
Proof using Hda Hdo.
  clear Hmean. intros Hb. induction c as [ | | |n|b|w es IH|w ms IH] using cst_ind'; intros Hc Hd; try exact I.
  - rewrite scan_arr. pose proof (wf_items _ _ Hc) as Hw. pose proof (Hda _ _ Hd) as Hde. clear Hc Hd.
    induction es as [|e es IHes]; [exact I|]. inversion IH as [|? ? IHe IHt]; subst. inversion Hw as [|? ? He Hes]; subst.
    inversion Hde as [|? ? Hdx Hdt]; subst. destruct e as [a v b]. cbn [selems].
    specialize (IHe (wf_ival _ He) Hdx). cbn [i_val] in IHe. destruct (scan_with _ _ _ _ _ v); [exact IHe | exact I | apply IHes; auto].
  - rewrite scan_obj. inversion Hc as [| | | | | |? ? Hw Hms]; subst. pose proof (Hdo _ _ Hd) as Hdm. clear Hc Hd Hw.
    induction ms as [|m ms IHms]; [exact I|]. inversion IH as [|? ? IHe IHt]; subst. inversion Hms as [|? ? Hm Hmt]; subst.
    inversion Hdm as [|? ? Hdx Hdt]; subst. destruct Hm as [a k b c v d Ha Hkc Hbb Hcc Hv Hwd]. cbn [smembers m_val] in *.
    destruct (hit _); [|apply IHms; auto]. destruct fin; [split; auto|]. pose proof (Hb v Hv Hdx) as Hbv.
    destruct v as [ | | |n|s|w' es'|w' ms']; try exact I; destruct (below _) as [ro|]; auto;
      specialize (IHe Hv Hdx); (destruct (scan_with _ _ _ _ _ _); [exact IHe | exact I | apply IHms; auto]).
Qed.
Lemma seek_inval cn : forall ss c, wf c -> dom c -> inval (seen (seek cn ss c)).
Proof using Hda Hdo.
  clear Hmean. induction ss as [|s ss IH]; intros c Hc Hd; [split; auto|].
  destruct c as [ | | |n|b|w es|w ms]; try exact I.
  - pose proof (wf_items _ _ Hc) as Hw. pose proof (Hda _ _ Hd) as Hde.
    assert (Hin : forall e, In e es -> wf (i_val e) /\ dom (i_val e)).
    { intros e He. split; [apply wf_ival; exact (proj1 (Forall_forall _ _) Hw e He) | exact (proj1 (Forall_forall _ _) Hde e He)]. }
    cbn [S_Means.seek]. destruct s as [k| |q [|]].
    + destruct (ix k) as [n|]; [|exact I]. destruct (nth_error es n) as [e|] eqn:E; [|exact I].
      apply nth_error_In in E. destruct (Hin e E). cbn [seen]. apply IH; auto.
    + destruct (_ && _); exact I.
    + exact I.
    + destruct (find (hd q) (map i_val es)) as [d|] eqn:E; [|exact I]. apply find_some in E as [E _]. apply in_map_iff in E as (e & <- & He).
      destruct (Hin e He). cbn [seen]. apply IH; auto.
  - pose proof (scan_inval (hits mt s) (match ss with [] => true | _ => false end) (seek cn ss) IH (CObj w ms) Hc Hd) as H.
    change (seek cn (s :: ss) (CObj w ms)) with
      (match scan_with (hits mt s) (match ss with [] => true | _ => false end) (seek cn ss) (fun v => Some (Value v)) None (CObj w ms) with
       | Found r => Some r | _ => None end).
    destruct (scan_with _ _ _ _ _ _); auto; exact I.
Qed.
(** The entry of a list. *)
Lemma entry_goes t t' r o : tail_group t t' r -> inner_ok t -> inval o -> jgoes t' o (entry o).
Proof using.
  intros Ht Hi Ho. pose proof (inner_group _ _ _ Ht Hi) as [H1 H2]. destruct t as [|b|b]; cbn [tail_group] in Ht.
  - destruct Ht as [-> _]. cbn [jgoes jinside] in *. destruct o as [[e|x]|]; cbn [entry_of found_text]; auto. destruct Ho; auto.
  - destruct Ht as [-> _]. cbn [jgoes jinside] in *. destruct o as [[e|x]|]; cbn [entry_of found_text]; auto. destruct Ho; auto.
  - destruct Ht as (g & Hg & ->). pose proof (grouped_again _ _ _ Hg) as Ha. cbn [jgoes jinside] in *.
    destruct o as [[e|x]|]; cbn [entry_of found_text].
    + destruct Ho as [He Hd]. destruct (H1 e He Hd) as (g' & u & Hg' & H). destruct (grouped_unique _ _ _ _ _ Ha Hg') as [<- _]. exact H.
    + exists g, None. auto.
    + destruct H2 as (g' & u & Hg' & H). destruct (grouped_unique _ _ _ _ _ Ha Hg') as [<- _]. exact H.
Qed.

(* ---------- where the lookup leads ---------- *)

Definition get_ok (p : bytes) (ss : list step) (t : tail) : Prop :=
  forall c r, wf c -> dom c -> jgoes t (seen (seek (counting t) ss c)) r -> jget (render c) p r.
Definition shorter (n : nat) : Prop :=
  forall p ss t, length ss < n -> spelled p ss t -> incl ss all -> inner_ok t -> get_ok p ss t.

Lemma spelled_tail p s ss t : spelled p (s :: ss) t -> exists k o, first p k o /\ comp_step k s /\
  (p_comp (pnext p) = k) /\
  match o with
  | None => ss = [] /\ t = Done /\ p_sep (pnext p) = 0%N /\ p_more (pnext p) = false
  | Some (x, b) => p_sep (pnext p) = x /\ p_extra (pnext p) = b /\ p_more (pnext p) = true /\
      ((ss = [] /\ x = 124%N /\ t = Pipe b) \/ (ss = [] /\ x = 46%N /\ t = Into b /\ stage_start b) \/ (ss <> [] /\ x = 46%N /\ spelled b ss t))
  end.
Proof using.
  clear Hmean Hda Hdo. intros H. inversion H as [p0 k s0 F|p0 k s0 b F|p0 k s0 b F Hs Hb|p0 k s0 b ss0 t0 F Hs Hd Hb]; subst;
    destruct (first_next _ _ _ F) as [Ec E].
  - exists k, None. do 3 (split; [auto|]). do 2 (split; [auto|]). split; auto. unfold p_more. rewrite E. reflexivity.
  - exists k, (Some (124%N, b)). do 3 (split; [auto|]). destruct E as [E1 E2]. do 2 (split; [auto|]).
    split; [unfold p_more; rewrite E1; reflexivity|]. left; auto.
  - exists k, (Some (46%N, b)). do 3 (split; [auto|]). destruct E as [E1 E2]. do 2 (split; [auto|]).
    split; [unfold p_more; rewrite E1; reflexivity|]. right; left; auto.
  - exists k, (Some (46%N, b)). do 3 (split; [auto|]). destruct E as [E1 E2]. do 2 (split; [auto|]).
    split; [unfold p_more; rewrite E1; reflexivity|]. right; right. split; auto. inversion Hb; discriminate.
Qed.

(** The value for the last step of a lookup, and what is left of the path. *)
Lemma goal_rest p s ss t d i : spelled p (s :: ss) t -> incl ss all -> inner_ok t -> shorter (S (length ss)) -> wf d -> dom d ->
  goal t (seen (seek (counting t) ss d)) (tval d i) (pnext p).
Proof using.
  clear Hmean Hda Hdo. intros H Hin Hi Hsh Hd Hdd r Hr. destruct (spelled_tail _ _ _ _ H) as (k & o & F & Hs & Ec & Ho). unfold jcont.
  destruct o as [[x b]|].
  - destruct Ho as (_ & -> & -> & Ho). unfold v_get. apply jget_tval; auto.
    destruct Ho as [(-> & _ & ->)|[(-> & _ & -> & _)|(_ & _ & Hb)]].
    + exact Hr.
    + exact Hr.
    + exact (Hsh b ss t ltac:(lia) Hb Hin Hi d r Hd Hdd Hr).
  - destruct Ho as (-> & -> & _ & ->). cbn [seek seen jgoes found_text] in Hr. subst r. reflexivity.
Qed.
Lemma goal_nowhere_at p s ss t : spelled p (s :: ss) t ->
  (forall b r, spelled b ss t -> jgoes t None r -> jget [] b r) -> goal t None value_default (pnext p).
Proof using.
  clear Hmean Hda Hdo. intros H IH r Hr. destruct (spelled_tail _ _ _ _ H) as (k & o & F & Hs & Ec & Ho). unfold jcont.
  destruct o as [[x b]|].
  - destruct Ho as (_ & -> & -> & Ho). apply jget_default.
    destruct Ho as [(-> & _ & ->)|[(-> & _ & -> & _)|(_ & _ & Hb)]]; auto.
  - destruct Ho as (-> & -> & _ & ->). cbn [jgoes found_text] in Hr. subst r. reflexivity.
Qed.
Lemma get_nowhere : forall ss p t r, spelled p ss t -> jgoes t None r -> jget [] p r.
Proof using.
  clear Hmean Hda Hdo. induction ss as [|s ss IH]; intros p t r H Hr; [inversion H|].
  pose proof (goal_nowhere_at p s ss t H (fun b r Hb => IH b t r Hb) r Hr) as G. unfold jcont in G.
  unfold jget. rewrite (get_spelled [] _ _ _ H). unfold lstart. cbn [dropw bind].
  destruct (p_more (pnext p)); cbn [negb]; eauto.
Qed.
Lemma goal_nowhere p s ss t : spelled p (s :: ss) t -> goal t None value_default (pnext p).
Proof using. clear Hmean Hda Hdo. intros H. eapply goal_nowhere_at; eauto. intros. eapply get_nowhere; eauto. Qed.

(** The entries of a list. *)
Lemma entries_of p s ss t : spelled p (s :: ss) t -> incl ss all -> inner_ok t -> shorter (S (length ss)) -> p_sep (pnext p) = 46%N ->
  exists g rp r, next_group (pnext p) = Ok (g, rp) /\ tail_pipe t r /\ rest_is rp r /\
    forall e, wf e -> dom e -> jget (render e) g (entry (seen (seek (counting t) ss e))).
Proof using Hda Hdo.
  clear Hmean. intros H Hin Hi Hsh E46. destruct (spelled_tail _ _ _ _ H) as (k & o & F & Hs & Ec & Ho).
  destruct o as [[x b]|]; [|destruct Ho as (_ & _ & E & _); rewrite E in E46; discriminate].
  destruct Ho as (Ex & Eb & Em & Ho). rewrite next_group_spec, E46, Eb. cbn [N.eqb Pos.eqb].
  destruct Ho as [(-> & -> & ->)|[(-> & _ & -> & Hb)|(_ & _ & Hb)]]; [rewrite E46 in Ex; discriminate| |].
  - destruct (grouped_total b) as (g & r & Hg). destruct (grouped_group _ _ _ Hg) as (rp & -> & Hr). exists g, rp, r.
    split; auto. split; [exists g; auto|]. split; [exact Hr|]. intros e He Hd. cbn [seek seen entry_of].
    destruct Hi as [Hi _]. destruct (Hi e He Hd) as (g' & u & Hg' & Hj). destruct (grouped_unique _ _ _ _ _ Hg Hg') as [<- _]. exact Hj.
  - destruct (spelled_grouped _ _ _ Hb) as (g & r & t' & Hg & Hsp & Ht & _). destruct (grouped_group _ _ _ Hg) as (rp & -> & Hr). exists g, rp, r.
    split; auto. split; [destruct t; cbn [tail_group tail_pipe] in *; [apply Ht | apply Ht | destruct Ht as (g0 & Hg0 & _); eauto]|].
    split; [exact Hr|]. intros e He Hd. pose proof (counting_group _ _ _ Ht) as Ec'.
    apply (Hsh g ss t' ltac:(lia) Hsp Hin (inner_group _ _ _ Ht Hi) e); auto. rewrite Ec'.
    apply (entry_goes t t' r); auto. apply seek_inval; auto.
Qed.
Lemma plain_sep p s ss t : spelled p (s :: ss) t -> p_sep (pnext p) <> 46%N ->
  ss = [] /\ counting t = true /\ next_group (pnext p) = Ok ([], pnext p) /\ (t = Done \/ exists b, t = Pipe b) /\
  exists r, tail_pipe t r /\ rest_is (pnext p) r.
Proof using.
  clear Hmean Hda Hdo mt ix hd all inner inothing dom. intros H E46. destruct (spelled_tail _ _ _ _ H) as (k & o & F & Hs & Ec & Ho). rewrite next_group_spec.
  replace (p_sep (pnext p) =? 46)%N with false by lia. destruct o as [[x b]|].
  - destruct Ho as (Ex & Eb & Em & [(-> & -> & ->)|[(-> & Hx & _)|(_ & Hx & _)]]); [|congruence|congruence].
    split; auto. split; auto. split; auto. split; eauto. exists (Some b). split; [reflexivity|]. split; auto.
  - destruct Ho as (-> & -> & _ & Em). split; auto. split; auto. split; auto. split; auto. exists None. split; [reflexivity | exact Em].
Qed.
Lemma dot_count p s ss t : spelled p (s :: ss) t -> p_sep (pnext p) = 46%N -> match ss with [] => true | _ => false end && counting t = false.
Proof using.
  clear Hmean Hda Hdo mt ix hd all inner inothing dom. intros H E46. destruct (spelled_tail _ _ _ _ H) as (k & o & F & Hs & Ec & Ho). destruct o as [[x b]|].
  - destruct Ho as (Ex & Eb & Em & [(-> & -> & ->)|[(-> & _ & -> & _)|(Hn & _ & _)]]).
    + rewrite E46 in Ex. discriminate.
    + reflexivity.
    + destruct ss; [congruence | reflexivity].
  - destruct Ho as (_ & _ & E & _). rewrite E in E46. discriminate.
Qed.

Lemma larr_seek json w es r p s ss t : spelled p (s :: ss) t -> incl (s :: ss) all -> inner_ok t -> shorter (S (length ss)) ->
  wf (CArr w es) -> dom (CArr w es) ->
  exists v pt, larr get json false (render (CArr w es) ++ r) (pnext p) = Ok (v, pt) /\
    outcome t (seek (counting t) (s :: ss) (CArr w es)) v pt.
Proof using Hmean Hda Hdo.
  intros H Hin Hi Hsh Hc Hdc. pose proof (elems_tval json w es r Hc) as HF. pose proof (wf_items _ _ Hc) as Hwi.
  pose proof (Hda _ _ Hdc) as Hde. assert (Hin1 : In s all) by (apply Hin; left; auto).
  assert (Hin2 : incl ss all) by (intros z Hz; apply Hin; right; auto).
  assert (Hwe : forall e, In e es -> wf (i_val e)) by (intros e He; apply wf_ival; apply (proj1 (Forall_forall _ _) Hwi); auto).
  assert (Hdin : forall e, In e es -> dom (i_val e)) by (intros e He; exact (proj1 (Forall_forall _ _) Hde e He)).
  assert (Hno : outcome t None value_default (pnext p)) by (split; auto; eapply goal_nowhere; eauto).
  assert (Hyes : forall d i, wf d -> dom d -> outcome t (Some (seen (seek (counting t) ss d))) (tval d i) (pnext p)).
  { intros d i Hd Hdd. split; [apply tval_exists; auto|]. eapply goal_rest; eauto. }
  destruct (spelled_first _ _ _ H) as (k & o & s' & ss' & F & Hs & E). injection E as <- <-.
  destruct (first_next _ _ _ F) as [Ec _].
  destruct s as [k0| |q [|]].
  - (* index *)
    inversion Hs as [k1 Hh E1 E2| |]; subst k1 k0.
    assert (E : larr get json false (render (CArr w es) ++ r) (pnext p) =
      Ok (if (0 <=? comp_index k)%Z then nth (Z.to_nat (comp_index k)) (elems json false (render (CArr w es) ++ r)) value_default
          else value_default, pnext p)).
    { unfold larr. rewrite Ec. cbv zeta.
      destruct k as [|x k]; [reflexivity|]. destruct Hh as (_ & Hh & _). replace (x =? 35)%N with false by lia. reflexivity. }
    rewrite E. do 2 eexists. split; [reflexivity|]. cbn [seek].
    pose proof (fun n => mn_index _ _ _ _ Hmean k n Hin1) as Hix.
    destruct (ix k) as [n|] eqn:En.
    + assert (Ek : comp_index k = Z.of_nat n) by (apply index_key_iff, Hix; auto). rewrite Ek.
      replace (0 <=? Z.of_nat n)%Z with true by lia. rewrite Nat2Z.id.
      destruct (nth_error es n) as [e|] eqn:Ee.
      * destruct (Forall2_nth_some _ _ _ _ _ value_default HF Ee) as (i & ->). pose proof (nth_error_In _ _ Ee) as HI. apply Hyes; auto.
      * rewrite (Forall2_nth_none _ _ _ _ value_default HF) by (apply nth_error_None; auto). exact Hno.
    + destruct (Z.leb_spec 0 (comp_index k)) as [Hz|Hz]; [|exact Hno].
      assert (Ek : index_key k (Z.to_nat (comp_index k))) by (apply index_key_iff; lia). apply Hix in Ek. discriminate.
  - (* hash *)
    rewrite (step_comp _ _ Hs) in Ec. unfold larr. rewrite Ec. cbn [step_text N.eqb Pos.eqb]. change (35 =? 35)%N with true. cbv match.
    cbn [seek]. destruct (N.eqb_spec (p_sep (pnext p)) 46) as [E46|E46].
    + rewrite (dot_count _ _ _ _ H E46). destruct (entries_of _ _ _ _ H Hin2 Hi Hsh E46) as (g & rp & rr & -> & Htp & Hri & Hent). cbn [bind].
      destruct (listed_push (fun v => x <- v_get_with get v g ;; Ok (Some x)) (fun _ => true)
        (fun e => entry (seen (seek (counting t) ss e))) json w es r Hc) as (st & Est & Hsj).
      { intros e i He. destruct (jget_tval (i_val e) i g _ (Hwe e He) (Hent _ (Hwe e He) (Hdin e He))) as (v & -> & Hv). cbn [bind].
        eexists. split; [reflexivity|]. eauto. }
      rewrite Est. cbn [bind]. do 2 eexists. split; [reflexivity|].
      assert (Ef : filter (fun _ : cst => true) (map i_val es) = map i_val es) by (clear; induction es; cbn; congruence).
      rewrite Ef in Hsj. split; [rewrite exists_json, Hsj; reflexivity|]. rewrite mkowned_json in Hsj. rewrite Hsj. eapply list_end; eauto.
    + destruct (plain_sep _ _ _ _ H E46) as (-> & Hcn & _ & _ & rr & Htp & Hri). rewrite Hcn. cbn [andb].
      do 2 eexists. split; [reflexivity|]. rewrite <- (F2_length _ _ _ HF). rewrite decimal_eq.
      split; [|eapply list_end; eauto].
      rewrite exists_json, mkowned_json. unfold decimal. cbn [decimal_upto]. destruct (if length es <? 10 then _ else _); reflexivity.
  - (* all matches *)
    rewrite (step_comp _ _ Hs) in Ec, F. cbn [step_text] in Ec, F.
    destruct (qparts q) as [[lh op] rh] eqn:Ep. rewrite (larr_query_all _ _ _ _ Ec), Ep. cbn [bind seek].
    destruct (N.eqb_spec (p_sep (pnext p)) 46) as [E46|E46].
    + destruct (entries_of _ _ _ _ H Hin2 Hi Hsh E46) as (g & rp & rr & -> & Htp & Hri & Hent). cbn [bind].
      destruct (listed_push (fun v => m <- elem_matches get v lh op rh ;;
          (if m : bool then x <- v_get_with get v g ;; Ok (Some x) else Ok None)) (hd q)
        (fun e => entry (seen (seek (counting t) ss e))) json w es r Hc) as (st & Est & Hsj).
      { intros e i He. rewrite (holds_spelled p q true o (i_val e) i lh op rh F Hin1 (Hwe e He) Ep). cbn [bind].
        destruct (hd q (i_val e)); [|eexists; split; reflexivity].
        destruct (jget_tval (i_val e) i g _ (Hwe e He) (Hent _ (Hwe e He) (Hdin e He))) as (v & -> & Hv). cbn [bind].
        eexists. split; [reflexivity|]. eauto. }
      rewrite Est. cbn [bind]. do 2 eexists. split; [reflexivity|].
      split; [rewrite exists_json, Hsj; reflexivity|]. rewrite mkowned_json in Hsj. rewrite Hsj. eapply list_end; eauto.
    + destruct (plain_sep _ _ _ _ H E46) as (-> & Hcn & -> & Htt & rr & Htp & Hri). cbn [bind].
      destruct (listed_push (fun v => m <- elem_matches get v lh op rh ;; (if m : bool then Ok (Some v) else Ok None)) (hd q)
        (fun e => entry (seen (seek (counting t) [] e))) json w es r Hc) as (st & Est & Hsj).
      { intros e i He. rewrite (holds_spelled p q true o (i_val e) i lh op rh F Hin1 (Hwe e He) Ep). cbn [bind].
        destruct (hd q (i_val e)); [|eexists; split; reflexivity]. eexists. split; [reflexivity|]. eexists. split; [reflexivity|].
        cbn [seek seen entry_of]. change (v_json (tval (i_val e) i)) with (render (i_val e)). symmetry.
        destruct Hi as [Hi _]. specialize (Hi (i_val e) (Hwe e He) (Hdin e He)). destruct Htt as [->|(b & ->)]; exact Hi. }
      rewrite Est. cbn [bind]. do 2 eexists. split; [reflexivity|].
      split; [rewrite exists_json, Hsj; reflexivity|]. rewrite mkowned_json in Hsj. rewrite Hsj. eapply list_end; eauto.
  - (* first match *)
    rewrite (step_comp _ _ Hs) in Ec, F. cbn [step_text] in Ec, F.
    destruct (qparts q) as [[lh op] rh] eqn:Ep. rewrite (larr_query_one _ _ _ _ Ec), Ep. cbn [bind seek].
    pose proof (find_spelled p q false o es _ lh op rh F Hin1 Ep Hwi HF) as Hf.
    destruct (find (hd q) (map i_val es)) as [d|] eqn:Efd.
    + destruct Hf as (i & -> & Hd). cbn [bind]. do 2 eexists. split; [reflexivity|]. apply Hyes; auto. eapply find_dom; eauto.
    + rewrite Hf. cbn [bind]. do 2 eexists. split; [reflexivity|]. exact Hno.
Qed.

Lemma lobj_seek t : inner_ok t -> forall ss s p w ms r json f, spelled p (s :: ss) t -> incl (s :: ss) all -> shorter (S (length ss)) ->
  wf (CObj w ms) -> dom (CObj w ms) -> suf (render (CObj w ms) ++ r) json -> length ss < f ->
  exists v pt, lobj f get json (render (CObj w ms) ++ r) (pnext p) = Ok (v, pt) /\
    outcome t (seek (counting t) (s :: ss) (CObj w ms)) v pt.
Proof using Hmean Hda Hdo.
  intros Hi. induction ss as [|s2 ss IH]; intros s p w ms r json f Hp Hin Hsh Hc Hdc Hsuf Hf;
    (destruct f as [|f]; [lia|]); inversion Hc as [| | | | | |? ? Hw Hms]; subst; rewrite lobj_render by auto;
    rewrite <- (lloop_skips _ _ _ w) by (apply ws_plain_skip; auto);
    rewrite <- (lloop_skip _ _ _ 123%N) by discriminate;
    assert (Er : 123%N :: w ++ commas (map (render_memb render) ms) ++ 125%N :: r = render (CObj w ms) ++ r) by (cbn [render]; apps; reflexivity);
    rewrite Er;
    assert (Hin1 : In s all) by (apply Hin; left; auto);
    (match type of Hp with spelled _ (_ :: ?l) _ => assert (Hin2 : incl l all) by (intros z Hz; apply Hin; right; auto) end);
    destruct (spelled_tail _ _ _ _ Hp) as (k & o & F & Hs & Ec & Ho).
  - assert (Hsq : (p_sep (pnext p) =? 46)%N = true -> forall l, lsub_of f get json (pnext p) l = Ok LSquash).
    { intros E46 l. unfold lsub_of. cbv zeta. destruct o as [[x b]|].
      - destruct Ho as (Ex & -> & _ & [(_ & -> & _)|[(_ & _ & _ & Hb)|(Hn & _)]]); [rewrite Ex in E46; discriminate| |congruence].
        rewrite (stage_is_mod _ Hb). reflexivity.
      - destruct Ho as (_ & _ & E & _). rewrite E in E46. discriminate. }
    assert (HS := scan_spec (lsub_of f get json (pnext p)) json (pnext p) (hits mt s) true (seek (counting t) []) (fun v => Some (Value v)) None
      (fun fo v pt => v_exists v = true /\ goal t fo v pt) dom
      ltac:(intros x Hx; eapply hits_spelled; eauto) Hda Hdo
      ltac:(discriminate) (fun _ => Hsq)
      ltac:(intros c i _ Hwc Hdd; split; [apply tval_exists; auto | exact (goal_rest p s [] t c i Hp Hin2 Hi Hsh Hwc Hdd)])
      ltac:(discriminate) ltac:(discriminate) (CObj w ms) Hc Hdc eq_refl r Hsuf).
    change (seek (counting t) [s] (CObj w ms)) with
      (match scan_with (hits mt s) true (seek (counting t) []) (fun v => Some (Value v)) None (CObj w ms) with Found r => Some r | _ => None end).
    assert (Hx : lloop (lsub_of f get json (pnext p)) json (render (CObj w ms) ++ r) (pnext p) = Ok (value_default, pnext p) ->
      exists v p0, lloop (lsub_of f get json (pnext p)) json (render (CObj w ms) ++ r) (pnext p) = Ok (v, p0) /\ outcome t None v p0).
    { intros E. rewrite E. do 2 eexists. split; [reflexivity|]. split; auto. eapply goal_nowhere; eauto. }
    destruct (scan_with (hits mt s) true (seek (counting t) []) (fun v => Some (Value v)) None (CObj w ms)) as [ro| |] eqn:Es; [exact HS | exact (Hx HS) |].
    exfalso. clear -Es. rewrite scan_obj in Es. induction ms as [|[a k b c v d] ms IH]; [discriminate|]. cbn [smembers] in Es.
    destruct (hits _ _ _); [discriminate | auto].
  - destruct o as [[x b]|]; [|destruct Ho as (E & _); discriminate].
    destruct Ho as (Ex & Eb & Em & [(E & _)|[(E & _)|(_ & -> & Hb)]]); try discriminate.
    assert (Hsub : forall c r, wf c -> dom c -> is_container c = true -> follow r -> suf (render c ++ r) json ->
      match seek (counting t) (s2 :: ss) c with
      | Some ro => exists v p', lsub_of f get json (pnext p) (render c ++ r) = Ok (LReturn v p') /\ (v_exists v = true /\ goal t ro v p')
      | None => lsub_of f get json (pnext p) (render c ++ r) = Ok LNone
      end).
    { intros c r' Hwc Hdd Hco Hr' Hs'. unfold lsub_of. cbv zeta. rewrite Eb.
      destruct (spelled_first _ _ _ Hb) as (k2 & o2 & s2' & ss2' & F2 & Hs2 & E2). injection E2 as <- <-.
      rewrite (comp_not_mod _ _ _ _ F2 Hs2).
      assert (Hx : exists v p', (match render c ++ r' with
                 | x :: _ => if (x =? 123)%N then lobj f get json (render c ++ r') (pnext b)
                             else larr get json false (render c ++ r') (pnext b)
                 | [] => Err EPanic
                 end) = Ok (v, p') /\ outcome t (seek (counting t) (s2 :: ss) c) v p').
      { assert (Hsh' : shorter (S (length ss))) by (intros p' ss' t' Hl; apply Hsh; cbn [length]; lia).
        destruct c as [ | | |nn|bb|w' es'|w' ms']; try discriminate.
        - exact (larr_seek json w' es' r' b s2 ss t Hb Hin2 Hi Hsh' Hwc Hdd).
        - exact (IH s2 b w' ms' r' json f Hb Hin2 Hsh' Hwc Hdd Hs' ltac:(cbn [length] in Hf; lia)). }
      destruct Hx as (v & p' & -> & Hout). cbn [bind]. destruct (seek (counting t) (s2 :: ss) c) as [ro|]; cbn [outcome] in Hout.
      - destruct Hout as [Hv Hout]. rewrite Hv. do 2 eexists. split; [reflexivity|]. split; auto.
      - destruct Hout as [-> _]. reflexivity. }
    assert (HS := scan_spec (lsub_of f get json (pnext p)) json (pnext p) (hits mt s) false (seek (counting t) (s2 :: ss)) (fun v => Some (Value v)) None
      (fun fo v pt => v_exists v = true /\ goal t fo v pt) dom
      ltac:(intros x Hx; eapply hits_spelled; eauto) Hda Hdo
      ltac:(intros _; rewrite Ex; reflexivity) ltac:(discriminate) ltac:(discriminate)
      ltac:(intros c i _ Hwc Hdd Hco; split; [apply tval_exists; auto|];
            pose proof (goal_rest p s (s2 :: ss) t c i Hp Hin2 Hi Hsh Hwc Hdd) as HG; destruct c; try discriminate; exact HG)
      ltac:(intros _; exact Hsub) (CObj w ms) Hc Hdc eq_refl r Hsuf).
    change (seek (counting t) (s :: s2 :: ss) (CObj w ms)) with
      (match scan_with (hits mt s) false (seek (counting t) (s2 :: ss)) (fun v => Some (Value v)) None (CObj w ms) with Found r => Some r | _ => None end).
    assert (Hx : lloop (lsub_of f get json (pnext p)) json (render (CObj w ms) ++ r) (pnext p) = Ok (value_default, pnext p) ->
      exists v p0, lloop (lsub_of f get json (pnext p)) json (render (CObj w ms) ++ r) (pnext p) = Ok (v, p0) /\ outcome t None v p0).
    { intros E. rewrite E. do 2 eexists. split; [reflexivity|]. split; auto. eapply goal_nowhere; eauto. }
    destruct (scan_with (hits mt s) false (seek (counting t) (s2 :: ss)) (fun v => Some (Value v)) None (CObj w ms)) as [ro| |] eqn:Es; [exact HS | exact (Hx HS) |].
    exfalso. clear -Es. rewrite scan_obj in Es. induction ms as [|[a k1 b1 c v d] ms IH]; [discriminate|]. cbn [smembers] in Es.
    destruct (hits _ _ _); [|auto]. destruct v; try discriminate; destruct (seek (counting t) (s2 :: ss) _); try discriminate;
      destruct (scan_with _ _ _ _ _ _); try discriminate; auto.
Qed.

Lemma get_seek : forall n ss p t c w1 w2 r, length ss <= n -> spelled p ss t -> incl ss all -> inner_ok t -> ws w1 -> wf c -> dom c ->
  jgoes t (seen (seek (counting t) ss c)) r -> jget (w1 ++ render c ++ w2) p r.
Proof using Hmean Hda Hdo.
  induction n as [n IHn] using lt_wf_ind. intros ss p t c w1 w2 r Hn Hp Hin Hi Hw1 Hc Hdc Hr.
  destruct ss as [|s ss]; [inversion Hp|].
  assert (Hsh : shorter (S (length ss))).
  { intros p' ss' t' Hl Hp' Hin' Hi' d r' Hd Hdd Hr'.
    pose proof (IHn (length ss') ltac:(cbn [length] in Hn; lia) ss' p' t' d [] [] r' (le_n _) Hp' Hin' Hi' ltac:(constructor) Hd Hdd Hr') as H.
    cbn [app] in H. rewrite app_nil_r in H. exact H. }
  fold (doc w1 c w2).
  assert (Hout : exists v pt, lstart get (doc w1 c w2) (pnext p) = Ok (v, pt) /\ outcome t (seek (counting t) (s :: ss) c) v pt).
  { assert (Hsc : is_container c = false -> exists v pt, lstart get (doc w1 c w2) (pnext p) = Ok (v, pt) /\ outcome t (seek (counting t) (s :: ss) c) v pt).
    { intros Eco. rewrite lstart_scalar by auto. do 2 eexists. split; [reflexivity|].
      assert (Ee : seek (counting t) (s :: ss) c = None) by (destruct c; try discriminate; reflexivity). rewrite Ee.
      split; auto. eapply goal_nowhere; eauto. }
    destruct c as [ | | |nn|bb|w es|w ms]; try (apply Hsc; reflexivity).
    - rewrite lstart_arr by auto. apply larr_seek; auto.
    - rewrite lstart_obj by auto. apply lobj_seek; auto using suf_doc.
      destruct (spelled_tail _ _ _ _ Hp) as (k & o & F & Hs & Ec & Ho). destruct o as [[x b]|]; [|destruct Ho as (-> & _); cbn [length]; lia].
      destruct Ho as (_ & -> & _ & [(-> & _)|[(-> & _)|(_ & _ & Hb)]]); [cbn [length]; lia | cbn [length]; lia |].
      apply spelled_len in Hb. lia. }
  unfold jget. rewrite (get_spelled _ _ _ _ Hp). destruct Hout as (v & pt & -> & Hout). cbn [bind].
  assert (J : jcont v pt r).
  { destruct (seek (counting t) (s :: ss) c) as [fo|]; destruct Hout as [_ G]; apply G, Hr. }
  unfold jcont in J. destruct (p_more pt); cbn [negb]; eauto.
Qed.
End Sk.

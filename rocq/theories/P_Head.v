(** Every path that starts with an at-sign. *)
From Verif Require Import P_Base P_Json P_Valid P_Str P_Scan P_Each P_Doc P_Path P_LGet P_Parts P_Ext P_Total P_Value P_Key
  P_Taken P_Pipe P_Bad P_Wf P_Utf8 P_Mod P_ModDoc P_ModPretty P_POut
  M_Util M_Num M_Scan M_Value M_Path M_Valid M_Get M_Pretty S_Json S_Get S_Path S_Taken S_Mod S_Bad S_PrettyArg S_Head.

(* ---------- the group ---------- *)

Lemma split_quotable : forall n t b r, length t < n -> split_str t = Some (b, r) -> quotable b /\ t = b ++ 34%N :: r.
Proof.
  induction n as [|n IH]; intros t b r Hn; [lia|]. destruct t as [|c t]; [discriminate|]. cbn [split_str length] in *.
  destruct (N.eqb_spec c 34) as [->|H1]; [intros [= <- <-]; split; [constructor | reflexivity]|].
  destruct (N.eqb_spec c 92) as [->|H2].
  - destruct t as [|e t]; [discriminate|]. cbn [length] in Hn. destruct (split_str t) as [[b' r']|] eqn:E; [|discriminate].
    intros [= <- <-]. destruct (IH t b' r' ltac:(lia) E) as [Hq ->]. split; [apply qt_esc; auto | reflexivity].
  - destruct (split_str t) as [[b' r']|] eqn:E; [|discriminate].
    intros [= <- <-]. destruct (IH t b' r' ltac:(lia) E) as [Hq ->]. split; [apply qt_char; auto | reflexivity].
Qed.
Lemma quotable_split b r : quotable b -> split_str (b ++ 34%N :: r) = Some (b, r).
Proof.
  induction 1 as [|c t H1 H2 _ IH|c t _ IH]; cbn [app split_str].
  - reflexivity.
  - replace (c =? 34)%N with false by lia. replace (c =? 92)%N with false by lia. rewrite IH. reflexivity.
  - cbn [N.eqb Pos.eqb]. rewrite IH. reflexivity.
Qed.
Lemma lrest_group g r : mod_group g -> lrest (g ++ r) = r.
Proof.
  unfold lrest. intros [b Hb|o q c Ho Hq Hc].
  - unfold quoted. cbn [app lflat N.eqb Pos.eqb]. rewrite <- app_assoc. cbn [app]. rewrite quotable_split by auto. reflexivity.
  - cbn [app lflat]. rewrite <- app_assoc. cbn [app]. rewrite sq_close by auto.
    destruct Ho as [->| ->]; reflexivity.
Qed.
Lemma group_lrest c t s r : opening c -> lrest (c :: t) = s :: r -> exists g, mod_group g /\ c :: t = g ++ s :: r.
Proof.
  unfold lrest. cbn [lflat]. intros [->|[->| ->]]; cbn [N.eqb Pos.eqb orb].
  - destruct (sq false 0 t) as [x|] eqn:E; [|discriminate]. cbn [snd]. intros ->.
    destruct (sq_some _ _ E) as (q & c & Hq & Hc & ->). exists (123%N :: q ++ [c]). split; [constructor; auto|].
    cbn [app]. rewrite <- app_assoc. reflexivity.
  - destruct (sq false 0 t) as [x|] eqn:E; [|discriminate]. cbn [snd]. intros ->.
    destruct (sq_some _ _ E) as (q & c & Hq & Hc & ->). exists (91%N :: q ++ [c]). split; [constructor; auto|].
    cbn [app]. rewrite <- app_assoc. reflexivity.
  - destruct (split_str t) as [[b x]|] eqn:E; [|discriminate]. cbn [snd]. intros ->.
    destruct (split_quotable _ t _ _ (Nat.lt_succ_diag_r _) E) as (Hq & ->). exists (quoted b). split; [constructor; auto|].
    unfold quoted. cbn [app]. rewrite <- app_assoc. reflexivity.
Qed.
Lemma opening_iff c : ((c =? 123) || (c =? 91) || (c =? 34))%N = true <-> opening c.
Proof. unfold opening. split; intros H; lia. Qed.
Lemma opening_not c : ~ opening c -> ((c =? 123) || (c =? 91) || (c =? 34))%N = false.
Proof. unfold opening. intros H. lia. Qed.
Lemma group_opening g r c t : mod_group g -> g ++ r = c :: t -> opening c.
Proof.
  intros [b Hb|o q e Ho Hq He]; cbn [app quoted]; intros [= <- _]; unfold opening; tauto.
Qed.

(* ---------- the component ---------- *)

Lemma lpn_word n l : mod_word n -> forall esc pat, exists esc' pat', lpn true (n ++ l) esc pat = lpn true l esc' pat'.
Proof.
  induction 1 as [|c t Hs H1 H2 _ IH|c t _ IH]; intros esc pat; [exists esc, pat; reflexivity| |].
  - cbn [app lpn]. replace (c =? 92)%N with false by lia. replace (c =? 58)%N with false by lia. cbn [andb].
    assert (is_sep c = false) as ->. { destruct (is_sep c) eqn:E; auto. apply is_sep_iff in E. contradiction. }
    destruct ((c =? 42) || (c =? 63))%N; apply IH.
  - cbn [app lpn N.eqb Pos.eqb]. apply IH.
Qed.


(** What the scan returns. *)
Inductive scanned : text -> text -> text -> option text -> Prop :=
| sc_none : forall n, (exists esc pat, lpn true (64%N :: n) false false = ([], 0%N, esc, pat, None)) -> scanned (64%N :: n) n [] None
| sc_sep : forall n s r, is_sep s = true ->
    (exists esc pat, lpn true (64%N :: n ++ s :: r) false false = (r, s, esc, pat, None)) -> scanned (64%N :: n ++ s :: r) n [] (Some r)
| sc_arg : forall n a, (exists esc pat x, lpn true (64%N :: n ++ 58%N :: a) false false = (x, 0%N, esc, pat, Some (58%N :: a))) ->
    scanned (64%N :: n ++ 58%N :: a) n a None
| sc_arg_sep : forall n a s r, is_sep s = true ->
    (exists esc pat, lpn true (64%N :: n ++ 58%N :: a ++ s :: r) false false = (r, s, esc, pat, Some (58%N :: a ++ s :: r))) ->
    scanned (64%N :: n ++ 58%N :: a ++ s :: r) n a (Some r).

Lemma plain_scan a r : Forall (fun c => ~ separator c) a -> dropw is_sep (a ++ r) = dropw is_sep r.
Proof.
  induction 1 as [|c a H _ IH]; [reflexivity|]. cbn [app dropw].
  assert (is_sep c = false) as ->. { destruct (is_sep c) eqn:E; auto. apply is_sep_iff in E. contradiction. } exact IH.
Qed.
Lemma dropw_sep_cons s r : separator s -> dropw is_sep (s :: r) = s :: r.
Proof. intros H. cbn [dropw]. rewrite (proj2 (is_sep_iff s) H). reflexivity. Qed.

Lemma word_at n : mod_word n -> mod_word (64%N :: n).
Proof. intros H. constructor; auto; try discriminate. unfold separator. intros [|]; discriminate. Qed.
Lemma lpn_sep s r esc pat : separator s -> lpn true (s :: r) esc pat = (r, s, esc, pat, None).
Proof. intros [->| ->]; reflexivity. Qed.

Lemma head_scanned p n a r : head p n a r -> scanned p n a r.
Proof.
  intros [n0 Hn|n0 s r0 Hn Hs|n0 a0 Hn [Ha Hh]|n0 a0 s r0 Hn [Ha Hh] Hs|n0 g s r0 Hn Hg Hs|n0 c t Hn Ho Hng].
  - apply sc_none. destruct Hn as [Hn|(m & -> & Hm)].
    + destruct (lpn_word _ [] (word_at _ Hn) false false) as (e & q & E). rewrite app_nil_r in E. rewrite E. do 2 eexists. reflexivity.
    + destruct (lpn_word _ [92%N] (word_at _ Hm) false false) as (e & q & E). cbn [app] in E. rewrite E. do 2 eexists. reflexivity.
  - apply sc_sep; [apply is_sep_iff, Hs|]. destruct (lpn_word _ (s :: r0) (word_at _ Hn) false false) as (e & q & E).
    cbn [app] in E. rewrite E, lpn_sep by auto. eauto.
  - apply sc_arg. destruct (lpn_word _ (58%N :: a0) (word_at _ Hn) false false) as (e & q & E).
    cbn [app] in E. rewrite E. cbn [lpn N.eqb Pos.eqb andb]. destruct a0 as [|c t]; [do 3 eexists; reflexivity|].
    rewrite (opening_not c Hh). assert (Ed : dropw is_sep (c :: t) = []) by (rewrite <- (app_nil_r (c :: t)); rewrite plain_scan by auto; reflexivity).
    rewrite Ed. do 3 eexists. reflexivity.
  - apply sc_arg_sep; [apply is_sep_iff, Hs|]. destruct (lpn_word _ (58%N :: a0 ++ s :: r0) (word_at _ Hn) false false) as (e & q & E).
    cbn [app] in E. rewrite E. cbn [lpn N.eqb Pos.eqb andb].
    assert (Hd : forall c t, a0 ++ s :: r0 = c :: t -> ((c =? 123) || (c =? 91) || (c =? 34))%N = false).
    { intros c t Ec. apply opening_not. destruct a0 as [|x a0]; cbn [app] in Ec; injection Ec as <- _; auto.
      unfold opening. destruct Hs as [->| ->]; intros [|[|]]; discriminate. }
    destruct (a0 ++ s :: r0) as [|c t] eqn:Ec; [destruct a0; discriminate|]. rewrite (Hd c t eq_refl), <- Ec.
    rewrite plain_scan by auto. rewrite dropw_sep_cons by auto. rewrite (proj2 (is_sep_iff s) Hs). do 2 eexists. reflexivity.
  - apply sc_arg_sep; [apply is_sep_iff, Hs|]. destruct (lpn_word _ (58%N :: g ++ s :: r0) (word_at _ Hn) false false) as (e & q & E).
    cbn [app] in E. rewrite E. cbn [lpn N.eqb Pos.eqb andb].
    destruct (g ++ s :: r0) as [|c t] eqn:Ec; [destruct g; discriminate|].
    rewrite (proj2 (opening_iff c) (group_opening _ _ _ _ Hg Ec)), <- Ec, lrest_group by auto.
    rewrite (proj2 (is_sep_iff s) Hs). do 2 eexists. reflexivity.
  - apply sc_arg. destruct (lpn_word _ (58%N :: c :: t) (word_at _ Hn) false false) as (e & q & E).
    cbn [app] in E. rewrite E. cbn [lpn N.eqb Pos.eqb andb]. rewrite (proj2 (opening_iff c) Ho).
    destruct (lrest (c :: t)) as [|s r0] eqn:Er; [do 3 eexists; reflexivity|].
    destruct (is_sep s) eqn:Es; [|do 3 eexists; reflexivity]. exfalso.
    destruct (group_lrest _ _ _ _ Ho Er) as (g & Hg & Eg). apply (Hng g s r0 Hg); auto. apply is_sep_iff, Es.
Qed.

Lemma scanned_pnext p n a r : scanned p n a r -> exists comp esc pat marg extra sep,
  pnext p = mkPath comp esc pat sep marg extra /\
  (comp = 64%N :: n /\ marg = 0 /\ a = [] \/ comp = 64%N :: n ++ 58%N :: a /\ marg = S (length n)) /\
  match r with None => sep = 0%N | Some u => extra = u /\ is_sep sep = true end /\ exists t, p = 64%N :: t.
Proof.
  intros H. assert (Hsc : pnext p = lscan true p /\ exists t, p = 64%N :: t).
  { assert (Hp : exists t, p = 64%N :: t) by (destruct H; eauto). split; auto. destruct Hp as (t & ->).
    pose proof (pnext_eq (64%N :: t)) as E. unfold path_next in E. cbn [length Nat.ltb Nat.leb] in E.
    change (idx (64%N :: t) 0) with (@Ok N 64%N) in E. cbn [bind] in E.
    change (64 =? cAT)%N with true in E. cbv match in E. rewrite path_next_scan_spec in E. injection E as E. symmetry. exact E. }
  destruct Hsc as [Hsc Hp]. rewrite Hsc. unfold lscan.
  destruct H as [n (e & q & E)|n s r Hs (e & q & E)|n a (e & q & x & E)|n a s r Hs (e & q & E)]; rewrite E; do 6 eexists; (split; [reflexivity|]); (split; [|split; [|exact Hp]]).
  - left. auto.
  - reflexivity.
  - left. rewrite (is_sep_nz s Hs). split; [|auto]. rewrite app_comm_cons. apply upto_app.
  - auto.
  - right. split; [reflexivity|]. cbn [marg_pos]. rewrite app_comm_cons. unfold pos. rewrite app_length. cbn [length]. lia.
  - reflexivity.
  - right. rewrite (is_sep_nz s Hs). split.
    + replace (64%N :: n ++ 58%N :: a ++ s :: r) with ((64%N :: n ++ 58%N :: a) ++ s :: r) by (cbn [app]; rewrite <- app_assoc; reflexivity).
      apply upto_app.
    + cbn [marg_pos]. rewrite app_comm_cons. unfold pos. rewrite app_length. cbn [length]. lia.
  - auto.
Qed.

Theorem get_head json p n a r : head p n a r ->
  get json p = (out <- mod_apply get n json a ;;
     match r with None => Ok (json_into_owned (lparse out)) | Some u => v_get (json_into_owned (lparse out)) u end).
Proof.
  intros H. apply head_scanned, scanned_pnext in H as (comp & esc & pat & marg & extra & sep & E & Hc & Hr & t & Hp).
  rewrite get_spec. assert (Hl : split_lines p = (false, p)) by (subst p; destruct t; reflexivity).
  rewrite Hl, E. set (q := mkPath _ _ _ _ _ _). unfold lget_first.
  assert (Hm : is_modifier q = true).
  { unfold q, is_modifier. cbn [p_comp]. destruct Hc as [(-> & _)|(-> & _)]; reflexivity. }
  rewrite Hm. unfold mod_exec.
  assert (Hargs : (if p_marg q =? 0 then n <- slice_from (p_comp q) 1 ;; Ok (n, [])
     else n <- slice (p_comp q) 1 (p_marg q) ;; a <- slice_from (p_comp q) (p_marg q + 1) ;; Ok (n, a)) = Ok (n, a)).
  { unfold q. cbn [p_marg p_comp]. destruct Hc as [(-> & -> & ->)|(-> & ->)]; cbn [Nat.eqb].
    - rewrite slice_from_ok by (cbn [length]; lia). reflexivity.
    - assert (E1 : slice (64%N :: n ++ 58%N :: a) 1 (S (length n)) = Ok n).
      { apply (slice_mid [64%N] n (58%N :: a)); reflexivity. }
      rewrite E1. cbn [bind]. rewrite slice_from_ok by (cbn [length]; rewrite app_length; cbn [length]; lia).
      cbn [bind]. replace (S (length n) + 1) with (length (64%N :: n ++ [58%N])) by (cbn [length]; rewrite app_length; cbn [length]; lia).
      replace (64%N :: n ++ 58%N :: a) with ((64%N :: n ++ [58%N]) ++ a) by (cbn [app]; rewrite <- app_assoc; reflexivity).
      rewrite skipn_app, skipn_all, Nat.sub_diag. reflexivity. }
  rewrite Hargs. cbn [bind]. destruct (mod_apply get n json a) as [out|e]; [|reflexivity]. cbn [bind].
  rewrite parse_spec. cbn [bind]. unfold p_more, q. cbn [p_sep p_extra].
  destruct r as [u|].
  - destruct Hr as [-> Hs]. rewrite (is_sep_nz _ Hs). reflexivity.
  - subst sep. reflexivity.
Qed.

(* ---------- every path has a head ---------- *)

Lemma word_cases : forall k t, length t < k -> last_word t \/
  (exists n s r, t = n ++ s :: r /\ mod_word n /\ separator s) \/
  (exists n a, t = n ++ 58%N :: a /\ mod_word n).
Proof.
  induction k as [|k IH]; intros t Hk; [lia|]. destruct t as [|c t]; [left; left; constructor|]. cbn [length] in Hk.
  destruct (N.eq_dec c 92) as [->|H1].
  - destruct t as [|x t]; [left; right; exists []; split; [reflexivity | constructor]|]. cbn [length] in Hk.
    destruct (IH t ltac:(lia)) as [[H|(m & -> & Hm)]|[(n & s & r & -> & Hn & Hs)|(n & a & -> & Hn)]].
    + left. left. apply mw_esc; auto.
    + left. right. exists (92%N :: x :: m). split; [reflexivity | apply mw_esc; auto].
    + right. left. exists (92%N :: x :: n), s, r. split; [reflexivity|]. split; [apply mw_esc; auto | auto].
    + right. right. exists (92%N :: x :: n), a. split; [reflexivity | apply mw_esc; auto].
  - destruct (N.eq_dec c 58) as [->|H2]; [right; right; exists [], t; split; [reflexivity | constructor]|].
    destruct (is_sep c) eqn:Es.
    { right. left. exists [], c, t. split; [reflexivity|]. split; [constructor | apply is_sep_iff, Es]. }
    assert (Hs' : ~ separator c). { intros X. apply is_sep_iff in X. congruence. }
    destruct (IH t ltac:(lia)) as [[H|(m & -> & Hm)]|[(n & s & r & -> & Hn & Hs)|(n & a & -> & Hn)]].
    + left. left. apply mw_char; auto.
    + left. right. exists (c :: m). split; [reflexivity | apply mw_char; auto].
    + right. left. exists (c :: n), s, r. split; [reflexivity|]. split; [apply mw_char; auto | auto].
    + right. right. exists (c :: n), a. split; [reflexivity | apply mw_char; auto].
Qed.
Lemma sep_cases a : Forall (fun c => ~ separator c) a \/ exists b s r, a = b ++ s :: r /\ Forall (fun c => ~ separator c) b /\ separator s.
Proof.
  induction a as [|c a IH]; [left; constructor|]. destruct (is_sep c) eqn:Es.
  - right. exists [], c, a. split; [reflexivity|]. split; [constructor | apply is_sep_iff, Es].
  - assert (Hs : ~ separator c). { intros X. apply is_sep_iff in X. congruence. }
    destruct IH as [IH|(b & s & r & -> & Hb & Hr)]; [left; constructor; auto|]. right. exists (c :: b), s, r. split; auto.
Qed.

Theorem head_total t : exists n a r, head (64%N :: t) n a r.
Proof.
  destruct (word_cases (S (length t)) t ltac:(lia)) as [H|[(n & s & r & -> & Hn & Hs)|(n & a & -> & Hn)]].
  - do 3 eexists. apply hd_end, H.
  - do 3 eexists. apply hd_sep; auto.
  - destruct a as [|c t].
    { do 3 eexists. apply hd_plain; auto. split; constructor. }
    destruct ((c =? 123) || (c =? 91) || (c =? 34))%N eqn:Eo.
    + apply opening_iff in Eo. destruct (lrest (c :: t)) as [|s r] eqn:Er.
      * do 3 eexists. apply hd_group; auto. intros g s r Hg Hs E. rewrite E, lrest_group in Er by auto. discriminate.
      * destruct (is_sep s) eqn:Es.
        -- destruct (group_lrest _ _ _ _ Eo Er) as (g & Hg & Eg). rewrite Eg. do 3 eexists. apply hd_group_sep; auto. apply is_sep_iff, Es.
        -- do 3 eexists. apply hd_group; auto. intros g s' r' Hg Hs E. rewrite E, lrest_group in Er by auto. injection Er as -> _.
           apply is_sep_iff in Hs. congruence.
    + assert (Ho : ~ opening c). { intros X. apply opening_iff in X. congruence. }
      destruct (sep_cases (c :: t)) as [H|(b & s & r & E & Hb & Hs)].
      * do 3 eexists. apply hd_plain; auto. split; auto.
      * rewrite E. do 3 eexists. apply hd_plain_sep; auto. split; auto. destruct b as [|x b]; auto. cbn [app] in E. congruence.
Qed.

(* ---------- consequences ---------- *)

Theorem head_unique p n a r n' a' r' : head p n a r -> head p n' a' r' -> n = n' /\ a = a' /\ r = r'.
Proof.
  intros H H'. apply head_scanned, scanned_pnext in H as (comp & esc & pat & marg & extra & sep & E & Hc & Hr & _).
  apply head_scanned, scanned_pnext in H' as (comp' & esc' & pat' & marg' & extra' & sep' & E' & Hc' & Hr' & _).
  rewrite E in E'. injection E' as -> -> -> -> -> ->.
  assert (Hna : n = n' /\ a = a').
  { destruct Hc as [(E1 & E2 & ->)|(E1 & E2)], Hc' as [(F1 & F2 & ->)|(F1 & F2)]; try (rewrite E2 in F2; discriminate).
    - split; congruence.
    - rewrite E1 in F1. injection F1 as F1. apply app_inj_len in F1; [|congruence]. destruct F1 as [-> F1]. split; congruence. }
  destruct Hna as [-> ->]. split; auto. split; auto. destruct r as [u|], r' as [u'|].
  - destruct Hr as [-> _], Hr' as [-> _]. reflexivity.
  - destruct Hr as [_ Hr]. subst. discriminate.
  - destruct Hr' as [_ Hr']. subst. discriminate.
  - reflexivity.
Qed.

Lemma head_alone p n a r : head p n a (Some r) -> head (64%N :: n ++ 58%N :: a) n a None.
Proof.
  intros H. inversion H as [|n0 s r0 Hn Hs| |n0 a0 s r0 Hn Ha Hs|n0 g s r0 Hn Hg Hs|]; subst.
  - apply hd_plain; auto. split; constructor.
  - apply hd_plain; auto.
  - destruct a as [|c t]; [inversion Hg|].
    apply hd_group; auto; [eapply (group_opening (c :: t) [] c t); auto; apply app_nil_r|].
    intros g' s' r' Hg' Hs' E'. pose proof (lrest_group (c :: t) [] Hg) as E. rewrite app_nil_r in E.
    rewrite E', lrest_group in E by auto. discriminate.
Qed.
Theorem head_rest json p n a r v : head p n a (Some r) -> get json (64%N :: n ++ 58%N :: a) = Ok v -> get json p = v_get v r.
Proof.
  intros H. rewrite (get_head json p n a (Some r) H), (get_head json _ n a None (head_alone p n a r H)).
  destruct (mod_apply get n json a) as [out|e]; cbn [bind]; [|discriminate]. congruence.
Qed.
Theorem head_same json p p' n a r : head p n a r -> head p' n a r -> get json p = get json p'.
Proof. intros H H'. rewrite (get_head json p n a r H), (get_head json p' n a r H'). reflexivity. Qed.
Theorem head_unknown json p n a : head p n a None -> ~ In n known -> exists v, get json p = Ok v /\ absent v.
Proof.
  intros H Hk. rewrite (get_head json p n a None H), mod_apply_unknown by auto. cbn [bind].
  eexists. split; [reflexivity | exact parse_nil_absent].
Qed.
Lemma name_word n : mod_name n -> mod_word n.
Proof.
  intros H. induction H as [|c n (H1 & H2 & H3 & H4) _ IH]; [constructor|]. apply mw_char; auto. unfold separator. tauto.
Qed.
Lemma name_head n : mod_name n -> head (64%N :: n) n [] None.
Proof. intros H. apply hd_end. left. apply name_word, H. Qed.
Theorem head_ignored json p n a : In n [n_this; n_valid; n_reverse; n_ugly] -> head p n a None -> get json p = get json (64%N :: n).
Proof.
  intros Hn H. assert (Hm : mod_name n). { cbn [In] in Hn. apply plain_name. destruct Hn as [<-|[<-|[<-|[<-|[]]]]]; reflexivity. }
  rewrite (get_head json p n a None H), (get_head json _ n [] None (name_head n Hm)).
  cbn [In] in Hn. destruct Hn as [<-|[<-|[<-|[<-|[]]]]]; reflexivity.
Qed.
Lemma flatten_arg b a a' dv dv' : get a s_deep = Ok dv -> get a' s_deep = Ok dv' -> v_bool dv = Ok b -> v_bool dv' = Ok b ->
  forall fuel json, mod_flatten fuel get json a = mod_flatten fuel get json a'.
Proof.
  intros E1 E2 B1 B2. induction fuel as [|fuel IH]; intros json; [reflexivity|]. cbn [mod_flatten].
  destruct (parse json) as [res|]; [|reflexivity]. cbn [bind]. destruct (negb _); [reflexivity|].
  rewrite E1, E2. cbn [bind]. rewrite B1, B2. cbn [bind]. f_equal. apply v_each_ext. intros [out k] x y. rewrite IH. reflexivity.
Qed.
Definition flatten_path (b : bool) : text := 64%N :: n_flatten ++ if b then 58%N :: 123%N :: 34%N :: s_deep ++ [34; 58; 116; 114; 117; 101; 125]%N else [].
Definition join_path (b : bool) : text := 64%N :: n_join ++ if b then 58%N :: 123%N :: 34%N :: s_preserve ++ [34; 58; 116; 114; 117; 101; 125]%N else [].
Lemma json_arg_head n c : mod_name n -> wf c -> match c with CObj _ _ => True | _ => False end -> head (64%N :: n ++ 58%N :: render c) n (render c) None.
Proof.
  intros Hn Hc Hk. pose proof (name_word n Hn) as Hw.
  destruct c as [ | | | | | |w ms]; try contradiction.
  destruct (render (CObj w ms)) as [|h t] eqn:E; [discriminate|].
  assert (h = 123%N) as -> by (cbn [render] in E; congruence).
  apply hd_group; auto; [left; reflexivity|]. intros g s r Hg Hs Eg.
  pose proof (lrest_any (CObj w ms) [] Hc I) as L. rewrite E, app_nil_r, Eg, lrest_group in L by auto. discriminate.
Qed.

Theorem head_flatten json p a dv b : head p n_flatten a None -> get a s_deep = Ok dv -> v_bool dv = Ok b ->
  get json p = get json (flatten_path b).
Proof.
  intros H E B. rewrite (get_head json p _ a None H). destruct b.
  - assert (Hh : head (flatten_path true) n_flatten (render (CObj [] [Memb [] s_deep [] [] CTrue []])) None).
    { change (flatten_path true) with (64%N :: n_flatten ++ 58%N :: render (CObj [] [Memb [] s_deep [] [] CTrue []])).
      apply json_arg_head; [apply plain_name; reflexivity| |exact I]. apply wfb_wf. vm_compute. reflexivity. }
    rewrite (get_head json _ _ _ None Hh). change (mod_apply get n_flatten json ?x) with (mod_flatten (S (length json)) get json x).
    erewrite (flatten_arg true a); [reflexivity | exact E | vm_compute; reflexivity | exact B | vm_compute; reflexivity].
  - assert (Hh : head (flatten_path false) n_flatten [] None).
    { unfold flatten_path. rewrite app_nil_r. apply name_head, plain_name. reflexivity. }
    rewrite (get_head json _ _ _ None Hh). change (mod_apply get n_flatten json ?x) with (mod_flatten (S (length json)) get json x).
    erewrite (flatten_arg false a); [reflexivity | exact E | vm_compute; reflexivity | exact B | vm_compute; reflexivity].
Qed.
Theorem head_join json p a dv b : head p n_join a None -> get a s_preserve = Ok dv -> v_bool dv = Ok b ->
  get json p = get json (join_path b).
Proof.
  intros H E B. rewrite (get_head json p _ a None H).
  assert (G : forall a' dv', get a' s_preserve = Ok dv' -> v_bool dv' = Ok b -> mod_join get json a = mod_join get json a').
  { intros a' dv' E' B'. unfold mod_join. destruct (parse json); [|reflexivity]. cbn [bind]. destruct (negb _); [reflexivity|].
    rewrite E, E'. cbn [bind]. rewrite B, B'. reflexivity. }
  destruct b.
  - assert (Hh : head (join_path true) n_join (render (CObj [] [Memb [] s_preserve [] [] CTrue []])) None).
    { change (join_path true) with (64%N :: n_join ++ 58%N :: render (CObj [] [Memb [] s_preserve [] [] CTrue []])).
      apply json_arg_head; [apply plain_name; reflexivity| |exact I]. apply wfb_wf. vm_compute. reflexivity. }
    rewrite (get_head json _ _ _ None Hh). change (mod_apply get n_join json ?x) with (mod_join get json x).
    erewrite G; [reflexivity | vm_compute; reflexivity | vm_compute; reflexivity].
  - assert (Hh : head (join_path false) n_join [] None).
    { unfold join_path. rewrite app_nil_r. apply name_head, plain_name. reflexivity. }
    rewrite (get_head json _ _ _ None Hh). change (mod_apply get n_join json ?x) with (mod_join get json x).
    erewrite G; [reflexivity | vm_compute; reflexivity | vm_compute; reflexivity].
Qed.
Theorem head_pretty json p a o : head p n_pretty a None -> a <> [] -> pretty_arg a o ->
  exists out v x, pretty_options json o = Ok out /\ get json p = Ok v /\
    parse out = Ok x /\ v_json v = v_json x /\ v_kind v = v_kind x /\ v_str v = v_str x.
Proof.
  intros H Hn Ho. destruct (pretty_total json o) as (out & E). rewrite (get_head json p _ a None H).
  change (mod_apply get n_pretty json a) with (mod_pretty get json a). rewrite (mod_pretty_arg json a o Hn Ho), E. cbn [bind].
  exists out. do 2 eexists. split; [reflexivity|]. split; [reflexivity|]. split; [apply parse_spec|].
  pose proof (into_parse out) as Hv. split; [exact (proj1 Hv)|]. split; [exact (veq_kind _ _ Hv) | exact (veq_str _ _ Hv)].
Qed.

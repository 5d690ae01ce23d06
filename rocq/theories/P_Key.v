(** Parsing of simple paths. *)
From Verif Require Import P_Base P_Valid P_Str P_Glob P_Scan P_Each P_Doc P_Path P_LGet P_Parts P_Ext
  M_Util M_Num M_Scan M_Value M_Path M_Get S_Json S_Path.

(** The escape and pattern flags of a component. *)
Fixpoint kfl (fuel : nat) (k : bytes) (e p : bool) : bool * bool :=
  match fuel, k with
  | S fuel, c :: t =>
      if (c =? 92)%N then match t with [] => (true, p) | _ :: t' => kfl fuel t' true p end
      else if ((c =? 42) || (c =? 63))%N then kfl fuel t e true
      else kfl fuel t e p
  | _, _ => (e, p)
  end.
Definition kflags (k : bytes) : bool * bool := kfl (length k) k false false.

Lemma lpn_sep k : comp_body k -> forall s rest e p n, is_sep s = true -> length k <= n ->
  lpn false (k ++ s :: rest) e p = (rest, s, fst (kfl n k e p), snd (kfl n k e p), None).
Proof.
  induction 1 as [|c t Hc Ht IH|c t Ht IH]; intros s rest e p n Hs Hn; cbn [app lpn andb].
  - pose proof Hs as Hs'. unfold is_sep in Hs. replace (s =? 92)%N with false by lia.
    replace ((s =? 42) || (s =? 63))%N with false by lia. rewrite Hs'. destruct n; reflexivity.
  - destruct n as [|n]; cbn [length] in Hn; [lia|]. cbn [kfl]. destruct Hc as (H1 & H2 & H3).
    replace (c =? 92)%N with false by lia.
    destruct ((c =? 42) || (c =? 63))%N; [apply IH; auto; lia|].
    replace (is_sep c) with false by (unfold is_sep; lia). apply IH; auto; lia.
  - destruct n as [|n]; cbn [length] in Hn; [lia|]. cbn [kfl N.eqb Pos.eqb]. apply IH; auto; lia.
Qed.
Lemma lpn_end k : comp_body k -> forall e p n, length k <= n ->
  lpn false k e p = ([], 0%N, fst (kfl n k e p), snd (kfl n k e p), None).
Proof.
  induction 1 as [|c t Hc Ht IH|c t Ht IH]; intros e p n Hn; cbn [app lpn andb].
  - destruct n; reflexivity.
  - destruct n as [|n]; cbn [length] in Hn; [lia|]. cbn [kfl]. destruct Hc as (H1 & H2 & H3).
    replace (c =? 92)%N with false by lia.
    destruct ((c =? 42) || (c =? 63))%N; [apply IH; auto; lia|].
    replace (is_sep c) with false by (unfold is_sep; lia). apply IH; auto; lia.
  - destruct n as [|n]; cbn [length] in Hn; [lia|]. cbn [kfl N.eqb Pos.eqb]. apply IH; auto; lia.
Qed.

Lemma upto_sep (k : bytes) r : upto (k ++ r) r = k.
Proof. unfold upto. rewrite app_length. replace (length k + length r - length r) with (length k) by lia. apply firstn_length_app. Qed.

Lemma lscan_sep k s rest : comp_body k -> is_sep s = true ->
  lscan false (k ++ s :: rest) = mkPath k (fst (kflags k)) (snd (kflags k)) s 0 rest.
Proof.
  intros Hk Hs. unfold lscan. rewrite (lpn_sep k Hk s rest false false (length k)) by auto. rewrite is_sep_nz by auto. rewrite upto_sep. reflexivity.
Qed.
Lemma lscan_end k : comp_body k -> lscan false k = mkPath k (fst (kflags k)) (snd (kflags k)) 0 0 [].
Proof. intros Hk. unfold lscan. rewrite (lpn_end k Hk false false (length k)) by auto. reflexivity. Qed.

Lemma pnext_scan c t : c <> 64%N -> c <> 35%N -> c <> 123%N -> c <> 91%N -> pnext (c :: t) = lscan false (c :: t).
Proof.
  intros H1 H2 H3 H4. unfold pnext, path_next. change (0 <? length (c :: t)) with true. change (idx (c :: t) 0) with (@Ok N c).
  cbn [bind]. replace (c =? 64)%N with false by lia. replace (c =? 35)%N with false by lia.
  replace ((c =? 123) || (c =? 91))%N with false by lia. rewrite path_next_scan_spec. reflexivity.
Qed.
Lemma pnext_nil : pnext [] = mkPath [] false false 0 0 [].
Proof. reflexivity. Qed.

Lemma pnext_sep k s rest : component k -> is_sep s = true ->
  pnext (k ++ s :: rest) = mkPath k (fst (kflags k)) (snd (kflags k)) s 0 rest.
Proof.
  intros [H1 H2] Hs. rewrite <- lscan_sep by auto. destruct k as [|c k].
  - cbn [app]. unfold is_sep in Hs. apply pnext_scan; lia.
  - cbn [app]. apply pnext_scan; apply H2.
Qed.
Lemma pnext_end k : component k -> pnext k = mkPath k (fst (kflags k)) (snd (kflags k)) 0 0 [].
Proof.
  intros [H1 H2]. rewrite <- lscan_end by auto. destruct k as [|c k]; [reflexivity|]. apply pnext_scan; apply H2.
Qed.

Lemma pnext_hash : pnext [35%N] = mkPath [35%N] false false 0 0 [].
Proof. reflexivity. Qed.
Lemma pnext_hash_sep s rest : is_sep s = true -> pnext (35%N :: s :: rest) = mkPath [35%N] false false s 0 rest.
Proof.
  intros Hs. unfold pnext, path_next. change (0 <? length (35%N :: s :: rest)) with true.
  change (idx (35%N :: s :: rest) 0) with (@Ok N 35%N). cbn [bind].
  change ((35 =? cAT)%N) with false. change ((35 =? cHASH)%N) with true. cbv match.
  change (length (35%N :: s :: rest) =? 1) with false. change (idx (35%N :: s :: rest) 1) with (@Ok N s). cbn [bind].
  rewrite Hs. rewrite path_next_scan_spec. change (35%N :: s :: rest) with ([35%N] ++ s :: rest).
  rewrite lscan_sep; auto. apply cb_char; [|constructor]. unfold comp_byte. lia.
Qed.

Lemma simple_not_mod k e pt s m x : comp_head k -> is_modifier (mkPath k e pt s m x) = false
  /\ is_multipath (mkPath k e pt s m x) = false.
Proof.
  unfold is_modifier, is_multipath. cbn [p_comp]. destruct k as [|c k]; auto. intros (H1 & H2 & H3 & H4).
  split; lia.
Qed.

Lemma split_lines_simple k rest : (k <> [] /\ hd 0%N k <> 46%N) -> split_lines (k ++ rest) = (false, k ++ rest).
Proof.
  intros [Hn Hh]. destruct k as [|c k]; [congruence|]. cbn [hd] in Hh. cbn [app split_lines].
  destruct (k ++ rest) as [|d t]; auto. replace (c =? cDOT)%N with false by (change cDOT with 46%N; lia). reflexivity.
Qed.
Lemma split_lines_one k : comp_body k -> split_lines k = (false, k).
Proof.
  intros H. destruct k as [|c [|d k]]; auto. cbn [split_lines].
  replace (c =? cDOT)%N with false; [reflexivity|]. change cDOT with 46%N.
  inversion H as [|c' t' (H1 & _) Ht|]; subst; [lia | reflexivity].
Qed.

(** [get] for a first component of a plain kind. *)
Lemma get_simple json k rest : component k ->
  (rest = [] \/ (exists s r, rest = s :: r /\ is_sep s = true /\ k <> [])) ->
  get json (k ++ rest) =
    ('(res, p) <- lstart get json (pnext (k ++ rest)) ;;
     if negb (p_more p) then Ok res else v_get res (p_extra p)).
Proof.
  intros Hk Hr. rewrite get_eq, get_body_spec.
  assert (E : split_lines (k ++ rest) = (false, k ++ rest)).
  { destruct Hr as [->|(s & r & -> & Hs & Hn)].
    - rewrite app_nil_r. apply split_lines_one, Hk.
    - apply split_lines_simple. split; auto. destruct k as [|c k]; [congruence|].
      destruct Hk as [Hk _]. cbn [hd]. inversion Hk as [|c' t' (H1 & _) Ht|]; subst; [auto | discriminate]. }
  rewrite E. unfold lget_first.
  assert (Em : is_modifier (pnext (k ++ rest)) = false /\ is_multipath (pnext (k ++ rest)) = false).
  { destruct Hr as [->|(s & r & -> & Hs & Hn)].
    - rewrite app_nil_r, pnext_end by auto. apply simple_not_mod, Hk.
    - rewrite pnext_sep by auto. apply simple_not_mod, Hk. }
  destruct Em as [-> ->]. reflexivity.
Qed.

Lemma plain_comp k : plain_key k -> component k.
Proof.
  intros [H1 H2]. split; auto. clear H2. induction H1 as [|c t [Hc _] _ IH]; constructor; auto.
Qed.

(** Which members a component selects. *)
Definition special (k : bytes) : bool := existsb (fun c => (c =? 92) || (c =? 42) || (c =? 63))%N k.
Lemma kfl_special k : comp_body k -> forall n e p, length k <= n ->
  fst (kfl n k e p) || snd (kfl n k e p) = e || p || special k.
Proof.
  induction 1 as [|c t Hc Ht IH|c t Ht IH]; intros n e p Hn.
  - destruct n; cbn; rewrite ?orb_false_r; reflexivity.
  - destruct n as [|n]; cbn [length] in Hn; [lia|]. cbn [kfl special existsb]. destruct Hc as (H1 & H2 & H3).
    replace (c =? 92)%N with false by lia. cbn [orb].
    fold (special t). destruct ((c =? 42) || (c =? 63))%N; rewrite IH by lia; [|reflexivity].
    rewrite !orb_true_r. reflexivity.
  - destruct n as [|n]; cbn [length] in Hn; [lia|]. cbn [kfl special existsb N.eqb Pos.eqb orb].
    rewrite IH by lia. rewrite orb_true_r. reflexivity.
Qed.
Lemma kflags_special k : comp_body k -> snd (kflags k) || fst (kflags k) = special k.
Proof. intros H. rewrite orb_comm. unfold kflags. rewrite kfl_special by auto. reflexivity. Qed.

Lemma globm_plain k : special k = false -> forall s, globm k s <-> s = k.
Proof.
  induction k as [|c k IH]; intros Hk s; [apply globm_nil|]. cbn [special existsb] in Hk.
  apply orb_false_iff in Hk as [Hc Hk]. split.
  - intros H. inversion H; subst; cbn in Hc; try discriminate; [..|f_equal; apply IH; auto]; lia.
  - intros ->. constructor; try lia. apply IH; auto.
Qed.

Lemma kmatch_glob k s m x b : comp_body k ->
  kmatch (mkPath k (fst (kflags k)) (snd (kflags k)) s m x) b = true <-> globm k (sdec b).
Proof.
  intros Hk. unfold kmatch. cbn [p_pat p_esc p_comp]. rewrite kflags_special by auto.
  destruct (special k) eqn:E.
  - unfold pm. destruct (pmatch_spec k (sdec b)) as (r & -> & Hr). exact Hr.
  - rewrite globm_plain by auto. apply beq_eq.
Qed.

(* ---------- components of all kinds except modifiers and multipaths ---------- *)

Definition cflags (k : bytes) : bool * bool :=
  match k with c :: _ => if (c =? 35)%N then (false, false) else kflags k | [] => (false, false) end.
Definition cpath (k : bytes) (s : N) (rest : bytes) : path := mkPath k (fst (cflags k)) (snd (cflags k)) s 0 rest.

Lemma cflags_comp k : component k -> cflags k = kflags k.
Proof.
  intros [_ H]. unfold cflags. destruct k as [|c k]; auto. destruct H as (_ & H & _).
  replace (c =? 35)%N with false by lia. reflexivity.
Qed.

Lemma chars_quotable b : chars b -> quotable b.
Proof.
  induction 1 as [|c t (H1 & H2 & H3) Ht IH|c t He Ht IH|a b c d t Ha Hb Hc Hd Ht IH]; [constructor|apply qt_char; auto|apply qt_esc; auto|].
  apply qt_esc. apply hex_not in Ha, Hb, Hc, Hd. repeat (apply qt_char; [lia | lia |]). exact IH.
Qed.
Lemma sq_true b : quotable b -> forall d r, sq true d (b ++ 34%N :: r) = sq false d r.
Proof.
  induction 1 as [|c t H1 H2 Ht IH|c t Ht IH]; intros d r; cbn [app sq N.eqb Pos.eqb negb]; auto.
  replace (c =? 92)%N with false by lia. replace (c =? 34)%N with false by lia. auto.
Qed.
Lemma sq_quotable d b r : quotable b -> sq false d (quoted b ++ r) = sq false d r.
Proof. intros H. rewrite quoted_app_cons. cbn [sq N.eqb Pos.eqb negb]. apply sq_true; auto. Qed.
Lemma sq_balanced q : balanced q -> forall d r, sq false d (q ++ r) = sq false d r.
Proof.
  induction 1 as [|c t H1 H2 H3 H4 Ht IH|c t Ht IH|b t Hb Ht IH|o q c t Ho Hq IHq Hc Ht IH]; intros d r; auto.
  - cbn [app sq]. replace (c =? 92)%N with false by lia. replace (c =? 34)%N with false by lia.
    unfold bracket_open in H1. unfold bracket_close in H2.
    replace (is_open c) with false by (unfold is_open; lia). replace (is_close c) with false by (unfold is_close; lia). auto.
  - cbn [app sq N.eqb Pos.eqb]. auto.
  - rewrite <- app_assoc, sq_quotable by auto. auto.
  - cbn [app]. rewrite <- app_assoc. cbn [app sq]. unfold bracket_open in Ho. unfold bracket_close in Hc.
    replace (o =? 92)%N with false by lia. replace (o =? 34)%N with false by lia.
    replace (is_open o) with true by (unfold is_open; lia). rewrite IHq. cbn [sq].
    replace (c =? 92)%N with false by lia. replace (c =? 34)%N with false by lia.
    replace (is_open c) with false by (unfold is_open; lia). replace (is_close c) with true by (unfold is_close; lia). auto.
Qed.


Lemma pnext_query q all tail s rest : balanced q ->
  (tail = [] /\ s = 0%N /\ rest = []) \/ (tail = s :: rest /\ is_sep s = true) ->
  pnext (qcomp q all ++ tail) = mkPath (qcomp q all) false false s 0 rest.
Proof.
  intros Hq Ht. unfold pnext, path_next. set (extra := qcomp q all ++ tail).
  set (h := if all then [35%N] else []).
  assert (Ex : extra = 35%N :: 40%N :: q ++ 41%N :: h ++ tail).
  { unfold extra, qcomp, h. cbn [app]. rewrite <- app_assoc. reflexivity. }
  assert (E0 : idx extra 0 = Ok 35%N) by (rewrite Ex; reflexivity).
  assert (E1 : idx extra 1 = Ok 40%N) by (rewrite Ex; reflexivity).
  assert (El : length extra = S (S (length q + S (length h + length tail)))).
  { rewrite Ex. cbn [length]. rewrite app_length. cbn [length]. rewrite app_length. reflexivity. }
  replace (0 <? length extra) with true by lia. rewrite E0. cbn [bind].
  change ((35 =? cAT)%N) with false. change ((35 =? cHASH)%N) with true. cbv match.
  replace (length extra =? 1) with false by lia. rewrite E1. cbn [bind]. change (is_sep 40) with false. cbv match.
  unfold path_next_query. rewrite E1. cbn [bind]. change (negb (40 =? cLPAR)%N) with false. cbv match.
  assert (Hsuf : suf (40%N :: q ++ 41%N :: h ++ tail) extra) by (rewrite Ex; apply suf_cons).
  pose proof (scan_squash_spec extra _ _ Hsuf) as Hsq.
  assert (Hp : pos extra (40%N :: q ++ 41%N :: h ++ tail) = 1).
  { unfold pos. rewrite El. cbn [length]. rewrite app_length. cbn [length]. rewrite app_length. lia. }
  rewrite Hp in Hsq. rewrite Hsq. clear Hsq.
  rewrite sq_balanced by auto. change (sq false 0 (41%N :: h ++ tail)) with (Some (h ++ tail)). cbn [bind].
  set (ni := pos extra (h ++ tail)).
  assert (Hni : ni = length q + 3) by (unfold ni, pos; rewrite El, app_length; lia).
  assert (Hs2 : suf (h ++ tail) extra).
  { rewrite Ex. exists (35%N :: 40%N :: q ++ [41%N]). cbn [app]. rewrite <- app_assoc. reflexivity. }
  (* the separator *)
  set (i := length (qcomp q all)).
  assert (Hi : i = ni + length h).
  { unfold i, qcomp, h. cbn [length]. rewrite app_length. cbn [length]. rewrite Hni. destruct all; cbn [length]; lia. }
  assert (Hsep : (let i := ni in
        if i <? length extra then
          c <- idx extra i ;;
          if (c =? cHASH)%N then
            let i := i + 1 in
            if i <? length extra then
              c <- idx extra i ;;
              if is_sep c then Ok (Some (i, c)) else Ok None
            else Ok (Some (i, 0%N))
          else if is_sep c then Ok (Some (i, c))
          else Ok None
        else Ok (Some (i, 0%N))) = Ok (Some (i, s))).
  { cbv zeta. assert (Htl : suf tail extra) by (eapply suf_trans; [apply suf_app | exact Hs2]).
    assert (Hpt : pos extra tail = i) by (unfold pos; lia).
    assert (Htail : (tail = [] /\ s = 0%N /\ (i <? length extra) = false) \/
                    ((i <? length extra) = true /\ idx extra i = Ok s /\ is_sep s = true)).
    { destruct Ht as [(-> & -> & ->)|(-> & Hs)].
      - left. split; [reflexivity|]. split; [reflexivity|]. rewrite <- Hpt. apply pos_ltb_nil.
      - right. rewrite <- Hpt. rewrite (pos_ltb _ _ _ Htl), (idx_pos _ _ _ Htl). auto. }
    destruct all; cbn [h app length] in *.
    - assert (Hn : idx extra ni = Ok 35%N) by (apply idx_pos in Hs2; exact Hs2).
      replace (ni <? length extra) with true by lia. rewrite Hn. cbn [bind]. change ((35 =? cHASH)%N) with true. cbv match.
      replace (ni + 1) with i by lia. destruct Htail as [(_ & -> & ->)|(-> & -> & Hs)]; auto. cbn [bind]. rewrite Hs. reflexivity.
    - replace ni with i by lia. destruct Htail as [(_ & -> & ->)|(-> & -> & Hs)]; auto. cbn [bind].
      replace (s =? cHASH)%N with false by (change cHASH with 35%N; unfold is_sep in Hs; lia). rewrite Hs. reflexivity. }
  cbv zeta in Hsep. cbv zeta. rewrite Hsep. cbn [bind].
  assert (Hcomp : slice extra 0 i = Ok (qcomp q all)).
  { unfold i, extra. pose proof (slice_mid [] (qcomp q all) tail 0 (length (qcomp q all)) eq_refl eq_refl) as H. exact H. }
  assert (Hex : (if (s =? 0)%N then slice_from extra i else slice_from extra (i + 1)) = Ok rest).
  { destruct Ht as [(-> & -> & ->)|(-> & Hs)].
    - cbn [N.eqb]. unfold slice_from. replace i with (length extra) by (unfold i, extra; rewrite app_nil_r; reflexivity).
      rewrite slice_ok by lia. rewrite skipn_all, Nat.sub_diag. reflexivity.
    - rewrite is_sep_nz by auto. replace (i + 1) with (pos extra rest).
      + apply slice_from_pos. exists (qcomp q all ++ [s]). unfold extra. rewrite <- app_assoc. reflexivity.
      + unfold pos, i, extra. rewrite app_length. cbn [length]. lia. }
  rewrite Hex, Hcomp. cbn [bind].
  assert (Hl1 : usub (length (qcomp q all)) 1 = Ok (length (qcomp q all) - 1)) by (apply usub_ok; unfold qcomp; cbn [length]; lia).
  rewrite Hl1. cbn [bind]. destruct all; cbn [h] in *.
  - assert (Eq1 : qcomp q true = (35%N :: 40%N :: q ++ [41%N]) ++ [35%N]) by (unfold qcomp; cbn [app]; rewrite <- app_assoc; reflexivity).
    assert (Hz : idx (qcomp q true) (length (qcomp q true) - 1) = Ok 35%N) by (rewrite Eq1; apply idx_last).
    rewrite Hz. cbn [bind]. change ((35 =? cHASH)%N) with true. cbv match.
    assert (Hl2 : usub (length (qcomp q true)) 2 = Ok (length (qcomp q true) - 2)) by (apply usub_ok; unfold qcomp; cbn [length]; lia).
    rewrite Hl2. cbn [bind].
    assert (Hy : idx (qcomp q true) (length (qcomp q true) - 2) = Ok 41%N).
    { unfold idx. rewrite Eq1. rewrite app_length. cbn [length]. rewrite app_length. cbn [length].
      rewrite nth_error_app1 by (cbn [length]; rewrite app_length; cbn [length]; lia).
      replace (S (S (length q + 1)) + 1 - 2) with (S (S (length q))) by lia. cbn [nth_error].
      rewrite nth_error_app2 by lia. rewrite Nat.sub_diag. reflexivity. }
    rewrite Hy. cbn [bind]. reflexivity.
  - assert (Eq1 : qcomp q false = (35%N :: 40%N :: q) ++ [41%N]) by reflexivity.
    assert (Hz : idx (qcomp q false) (length (qcomp q false) - 1) = Ok 41%N) by (rewrite Eq1; apply idx_last).
    rewrite Hz. cbn [bind]. reflexivity.
Qed.


Lemma pnext_any_sep k s rest : any_comp k -> is_sep s = true -> pnext (k ++ s :: rest) = cpath k s rest.
Proof.
  intros [H|[->|(q & all & Hq & ->)]] Hs; unfold cpath.
  - rewrite cflags_comp by auto. apply pnext_sep; auto.
  - apply pnext_hash_sep; auto.
  - apply pnext_query; auto.
Qed.
Lemma pnext_any_end k : any_comp k -> pnext k = cpath k 0 [].
Proof.
  intros [H|[->|(q & all & Hq & ->)]]; unfold cpath.
  - rewrite cflags_comp by auto. apply pnext_end; auto.
  - reflexivity.
  - rewrite <- (app_nil_r (qcomp q all)) at 1. apply (pnext_query q all [] 0%N []); auto.
Qed.
Lemma any_not_mod k s x : any_comp k -> is_modifier (cpath k s x) = false /\ is_multipath (cpath k s x) = false.
Proof.
  intros [H|[->|(q & all & Hq & ->)]]; auto. apply simple_not_mod, H.
Qed.

Lemma dotted_cons k ks : ks <> [] -> dotted (k :: ks) = k ++ 46%N :: dotted ks.
Proof. destruct ks; [congruence | reflexivity]. Qed.

Lemma group_dotted ks : Forall any_comp ks -> ks <> [] ->
  exists r, group (dotted ks) = (dotted ks, r) /\ p_sep r = 0%N.
Proof.
  induction 1 as [|k ks Hk Hks IH]; intros Hn; [congruence|]. rewrite group_eq. cbv zeta.
  destruct ks as [|k2 ks].
  - cbn [dotted]. rewrite pnext_any_end by auto. cbn [cpath p_sep N.eqb p_comp]. eexists. split; reflexivity.
  - rewrite dotted_cons by discriminate. rewrite pnext_any_sep by auto. cbn [cpath p_sep N.eqb Pos.eqb p_comp p_extra].
    destruct IH as (r & -> & Hr); [discriminate|]. eauto.
Qed.
Lemma group_dotted_pipe ks rest : Forall any_comp ks -> ks <> [] ->
  exists r, group (dotted ks ++ 124%N :: rest) = (dotted ks, r) /\ p_sep r = 124%N /\ p_extra r = rest.
Proof.
  induction 1 as [|k ks Hk Hks IH]; intros Hn; [congruence|]. rewrite group_eq. cbv zeta.
  destruct ks as [|k2 ks].
  - cbn [dotted]. rewrite pnext_any_sep by auto. cbn [cpath p_sep N.eqb Pos.eqb p_comp p_extra]. eexists. split; [reflexivity|]. auto.
  - rewrite dotted_cons by discriminate. rewrite <- app_assoc. cbn [app]. rewrite pnext_any_sep by auto.
    cbn [cpath p_sep N.eqb Pos.eqb p_comp p_extra].
    destruct IH as (r & -> & Hr); [discriminate|]. eauto.
Qed.

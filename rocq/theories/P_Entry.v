(** Every multipath, well-formed or not. *)
From Coq Require Import String List.
From Verif Require Import P_Base P_Json P_Valid P_Scan P_Each P_Doc P_Path P_LGet P_Parts P_Ext P_Value P_Key P_GetArr P_Closed P_Multi P_Bad P_Total P_Reach
  M_Util M_Num M_Scan M_Value M_Path M_Valid M_Get S_Json S_Get S_Path S_Multi S_Bad S_Entry P_MultiDoc.
Import ListNotations.
Open Scope list_scope.

(* ---------- the entries ---------- *)

Lemma passed_char k c : c <> 44%N -> c <> 92%N -> ~ bracket_open c -> (k = false -> c <> 58%N) -> passed k [c].
Proof.
  intros P1 P2 P3 P4 r s co. unfold bracket_open in P3. destruct (N.eq_dec c 58) as [->|Hn].
  - exists (Some (58%N :: r)). split; [intros K; exfalso; apply (P4 K); reflexivity|]. intros [|fuel] Hf; [lia|].
    change (lcomps (S fuel) ([58%N] ++ r) s co) with (lcomps fuel r s (Some (58%N :: r))). cbn [app length] in Hf. apply lcomps_fuel; lia.
  - exists co. split; auto. intros [|fuel] Hf; [lia|]. cbn [app length] in Hf. cbn [app]. cbn [lcomps].
    replace (c =? 92)%N with false by lia. replace ((c =? 40) || (c =? 91) || (c =? 123))%N with false by lia.
    replace (c =? 44)%N with false by lia. replace (c =? 58)%N with false by lia. apply (lcomps_fuel fuel (S fuel) r s co); lia.
Qed.
Lemma passed_chunk k p : chunk k p -> passed k p.
Proof.
  induction 1; [apply passed_nil| | |].
  - apply (passed_app k [c] t); auto. apply passed_char; auto.
  - apply (passed_app k [92%N; c] t); auto. apply passed_esc.
  - replace (o :: q ++ c :: t) with ((o :: q ++ [c]) ++ t) by (cbn [app]; rewrite <- app_assoc; reflexivity).
    apply passed_app; auto. apply passed_group; auto.
Qed.
Lemma lcomps_chunk p : chunk false p -> forall fuel r s co, length (p ++ r) < fuel -> lcomps fuel (p ++ r) s co = lcomps fuel r s co.
Proof.
  intros Hp fuel r s co Hf. destruct (passed_chunk false p Hp r s co) as (co' & K & E). rewrite E by exact Hf. rewrite K; auto.
Qed.
Lemma lcomps_final p : final_chunk p -> forall fuel s co, length p < fuel -> lcomps fuel p s co = [lpair s co []].
Proof.
  intros [Hp|(a & o & q & -> & Ha & Ho & Hq)] fuel s co Hf.
  - pose proof (lcomps_chunk p Hp fuel [] s co) as E. rewrite app_nil_r in E. rewrite E by exact Hf. destruct fuel; [lia|]. reflexivity.
  - rewrite lcomps_chunk by (auto). rewrite app_length in Hf. cbn [length] in Hf. destruct fuel as [|fuel]; [lia|]. cbn [lcomps].
    replace (o =? 92)%N with false by (destruct Ho as [->|[->| ->]]; reflexivity).
    replace ((o =? 40) || (o =? 91) || (o =? 123))%N with true by (destruct Ho as [->|[->| ->]]; reflexivity).
    unfold sq_end. rewrite (proj2 (sq_none q) Hq). destruct fuel; [lia|]. reflexivity.
Qed.
(** Past the name and the colon. *)
Lemma lcomps_named e r fuel : name_chunk e -> length (entry_text e ++ r) < fuel ->
  exists co f, lcomps fuel (entry_text e ++ r) (entry_text e ++ r) None = lcomps f (snd e ++ r) (entry_text e ++ r) co /\
    length (snd e ++ r) < f /\ lpair (entry_text e ++ r) co r = epair e.
Proof.
  destruct e as [[n|] p]; unfold name_chunk, entry_text, epair; cbn [fst snd]; intros Hn Hf.
  - rewrite <- app_assoc in *. cbn [app] in *.
    destruct (passed_chunk true n Hn (58%N :: p ++ r) (n ++ 58%N :: p ++ r) None) as (co' & _ & E). rewrite E by exact Hf.
    rewrite app_length in Hf. cbn [length] in Hf. destruct fuel as [|fuel]; [lia|].
    exists (Some (58%N :: p ++ r)), fuel. split; [reflexivity|]. split; [lia|]. unfold lpair. cbn [tl]. rewrite !upto_app. reflexivity.
  - exists None, fuel. split; [reflexivity|]. split; [exact Hf|]. unfold lpair. rewrite upto_app. reflexivity.
Qed.
Theorem lcomps_entries q es : entries q es -> forall fuel, length q < fuel -> lcomps fuel q q None = map epair es.
Proof.
  induction 1 as [e Hn Hp|a Ha|e t es Hn Hp Ht IH]; intros fuel Hf.
  - destruct (lcomps_named e [] fuel Hn) as (co & f & E1 & Hf' & E2); [rewrite app_nil_r; exact Hf|]. rewrite !app_nil_r in *. rewrite E1.
    rewrite lcomps_final by auto. cbn [map]. rewrite E2. reflexivity.
  - destruct (passed_chunk true a Ha [92%N] (a ++ [92%N]) None) as (co' & _ & E). rewrite E by exact Hf.
    rewrite app_length in Hf. cbn [length] in Hf. destruct fuel; [lia|]. reflexivity.
  - destruct (lcomps_named e (44%N :: t) fuel Hn Hf) as (co & f & E1 & Hf' & E2). rewrite E1. rewrite lcomps_chunk by auto.
    rewrite app_length in Hf'. cbn [length] in Hf'. destruct f as [|f]; [lia|].
    change (lcomps (S f) (44%N :: t) (entry_text e ++ 44%N :: t) co) with (lpair (entry_text e ++ 44%N :: t) co (44%N :: t) :: lcomps f t t None).
    rewrite E2, IH by lia. reflexivity.
Qed.

(* ---------- every text has entries ---------- *)

Lemma chunk_split a : chunk true a -> chunk false a \/ exists n p, chunk true n /\ chunk false p /\ a = n ++ 58%N :: p.
Proof.
  induction 1 as [|c t H1 H2 H3 H4 Ht IH|c t Ht IH|o q c t Ho Hq Hc Ht IH].
  - left. constructor.
  - destruct IH as [IH|(n & p & Hn & Hp & ->)].
    + destruct (N.eq_dec c 58) as [->|Hc]; [right; exists [], t; split; [constructor|auto]|]. left. apply ck_char; auto.
    + right. exists (c :: n), p. split; [apply ck_char; auto|auto].
  - destruct IH as [IH|(n & p & Hn & Hp & ->)]; [left; apply ck_esc; auto|]. right. exists (92%N :: c :: n), p. split; [apply ck_esc; auto|auto].
  - destruct IH as [IH|(n & p & Hn & Hp & ->)]; [left; apply ck_group; auto|]. right. exists (o :: q ++ c :: n), p.
    split; [apply ck_group; auto|]. split; auto. cbn [app]. rewrite <- app_assoc. reflexivity.
Qed.
Lemma scan_cases : forall n l, length l < n ->
  (exists a, chunk true a /\ l = a ++ [92%N]) \/
  (chunk true l \/ exists a o q, l = a ++ o :: q /\ chunk true a /\ bracket_open o /\ unclosed q) \/
  (exists a t, chunk true a /\ l = a ++ 44%N :: t).
Proof.
  induction n as [|n IH]; intros l Hl; [lia|]. destruct l as [|c t]; [right; left; left; constructor|]. cbn [length] in Hl.
  assert (P : forall b u, (forall x, chunk true x -> chunk true (b ++ x)) -> length u < n ->
    (exists a, chunk true a /\ b ++ u = a ++ [92%N]) \/
    (chunk true (b ++ u) \/ exists a o q, b ++ u = a ++ o :: q /\ chunk true a /\ bracket_open o /\ unclosed q) \/
    (exists a t, chunk true a /\ b ++ u = a ++ 44%N :: t)).
  { intros b u Hb Hu. destruct (IH u Hu) as [(a & Ha & ->)|[[Hc|(a & o & q & -> & Ha & Ho & Hq)]|(a & s & Ha & ->)]].
    - left. exists (b ++ a). split; auto. apply app_assoc.
    - right. left. left. auto.
    - right. left. right. exists (b ++ a), o, q. split; [apply app_assoc|]. auto.
    - right. right. exists (b ++ a), s. split; auto. apply app_assoc. }
  destruct (N.eq_dec c 44) as [->|H1]; [right; right; exists [], t; split; [constructor|reflexivity]|].
  destruct (N.eq_dec c 92) as [->|H2].
  - destruct t as [|d u]; [left; exists []; split; [constructor|reflexivity]|]. cbn [length] in Hl.
    apply (P [92%N; d] u); [intros x Hx; apply ck_esc; auto | lia].
  - destruct (is_open c) eqn:Ho.
    + assert (Hb : bracket_open c) by (unfold is_open in Ho; unfold bracket_open; lia).
      destruct (sq false 0 t) as [r|] eqn:E.
      * destruct (sq_some _ _ E) as (q & z & Hq & Hz & ->). rewrite app_length in Hl. cbn [length] in Hl.
        replace (c :: q ++ z :: r) with ((c :: q ++ [z]) ++ r) by (cbn [app]; rewrite <- app_assoc; reflexivity).
        apply P; [|lia]. intros x Hx. cbn [app]. rewrite <- app_assoc. cbn [app]. apply ck_group; auto.
      * right. left. right. exists [], c, t. split; [reflexivity|]. split; [constructor|]. split; auto. apply sq_none, E.
    + apply (P [c] t); [|lia]. intros x Hx. apply ck_char; auto; [|discriminate]. unfold is_open in Ho. unfold bracket_open. lia.
Qed.
Lemma entry_of a : chunk true a -> exists e, name_chunk e /\ chunk false (snd e) /\ entry_text e = a.
Proof.
  intros H. destruct (chunk_split a H) as [Ha|(n & p & Hn & Hp & ->)].
  - exists (None, a). repeat split; auto.
  - exists (Some n, p). repeat split; auto.
Qed.
Theorem entries_total : forall q, exists es, entries q es.
Proof.
  intros q. assert (G : forall n q, length q < n -> exists es, entries q es); [|apply (G (S (length q)) q); lia].
  clear q. induction n as [|n IH]; intros q Hq; [lia|].
  destruct (scan_cases (S (length q)) q ltac:(lia)) as [(a & Ha & ->)|[[Hc|(a & o & t & -> & Ha & Ho & Ht)]|(a & t & Ha & ->)]].
  - exists []. apply en_cut, Ha.
  - destruct (entry_of q Hc) as (e & He & Hp & <-). exists [e]. apply en_last; auto. left. exact Hp.
  - destruct (entry_of a Ha) as ([[m|] p] & He & Hp & <-); cbn [snd] in Hp.
    + exists [(Some m, p ++ o :: t)]. change (entry_text (Some m, p) ++ o :: t) with ((m ++ 58%N :: p) ++ o :: t).
      rewrite <- app_assoc. cbn [app]. apply (en_last (Some m, p ++ o :: t)); auto. right. exists p, o, t. auto.
    + exists [(None, p ++ o :: t)]. apply (en_last (None, p ++ o :: t)); auto. right. exists p, o, t. auto.
  - rewrite app_length in Hq. cbn [length] in Hq. destruct (IH t ltac:(lia)) as (es & Hes). destruct (entry_of a Ha) as (e & He & Hp & <-).
    exists (e :: es). apply en_cons; auto.
Qed.
Theorem multi_total o t : exists b r, multi (o :: t) o b r.
Proof.
  destruct (sq false 0 t) as [r|] eqn:E.
  - destruct (sq_some _ _ E) as (q & z & Hq & Hz & ->). destruct (N.eq_dec z (closing o)) as [->|Hn].
    + exists (Some q), r. apply mu_closed; auto.
    + exists None, r. apply mu_wrong; auto.
  - apply sq_none in E. destruct (rev t) as [|z u] eqn:Er.
    + exists None, []. apply mu_open_wrong; auto. intros q ->. rewrite rev_app_distr in Er. discriminate.
    + assert (Et : t = rev u ++ [z]) by (rewrite <- (rev_involutive t), Er; reflexivity).
      destruct (N.eq_dec z (closing o)) as [->|Hn].
      * exists (Some (rev u)), []. rewrite Et in *. apply mu_open; auto.
      * exists None, []. apply mu_open_wrong; auto. intros q Hq. rewrite Hq in Et. apply app_inj_tail in Et as [_ Et]. congruence.
Qed.

(* ---------- the component ---------- *)

(** The separator behind the multipath and the rest of the path. *)
Definition after (r : text) : N * text := match r with s :: u => if is_sep s then (s, u) else (0%N, []) | [] => (0%N, []) end.

Lemma pnext_group o comp r : (o = 91 \/ o = 123)%N -> (sq false 0 (tl (comp ++ r)) = Some r \/ (sq false 0 (tl (comp ++ r)) = None /\ r = [])) ->
  hd 0%N comp = o -> comp <> [] -> pnext (comp ++ r) = mkPath comp false false (fst (after r)) 0 (snd (after r)).
Proof.
  intros Ho Hsq Hh Hn. destruct comp as [|o' q]; [congruence|]. cbn [hd] in Hh. subst o'. cbn [app tl] in Hsq. clear Hn.
  unfold pnext, path_next. set (extra := (o :: q) ++ r).
  assert (E0 : idx extra 0 = Ok o) by reflexivity.
  assert (El : length extra = S (length q) + length r) by (unfold extra; rewrite app_length; reflexivity).
  replace (0 <? length extra) with true by lia. rewrite E0. cbn [bind].
  change cAT with 64%N. change cHASH with 35%N. change cLBRC with 123%N. change cLBRK with 91%N.
  replace (o =? 64)%N with false by lia. replace (o =? 35)%N with false by lia. replace ((o =? 123) || (o =? 91))%N with true by lia.
  unfold path_next_multipath. pose proof (scan_squash_spec extra o (q ++ r) (suf_refl extra)) as Hs. change (o :: q ++ r) with extra in Hs. rewrite pos_refl in Hs.
  assert (Ei : exists x, scan_squash extra 0 = Ok (x, S (length q))).
  { rewrite Hs. destruct Hsq as [-> |[-> ->]].
    - eexists. f_equal. f_equal. unfold pos. rewrite El. lia.
    - eexists. f_equal. f_equal. rewrite El. cbn [length]. lia. }
  destruct Ei as (x & Ei). rewrite Ei. cbn [bind]. clear Hs Ei Hsq.
  assert (Hs : slice extra 0 (S (length q)) = Ok (o :: q)) by (apply (slice_mid [] (o :: q) r); reflexivity).
  destruct r as [|s u].
  - replace (S (length q) =? length extra) with true by (rewrite El; cbn [length]; lia). cbn [bind after fst snd]. rewrite Hs. cbn [bind].
    rewrite slice_from_ok by lia. cbn [bind]. rewrite skipn_all. reflexivity.
  - cbn [length] in El. replace (S (length q) =? length extra) with false by lia.
    assert (Ei : idx extra (S (length q)) = Ok s).
    { unfold idx, extra. rewrite nth_error_app2 by (cbn [length]; lia). replace (S (length q) - length (o :: q)) with 0 by (cbn [length]; lia). reflexivity. }
    rewrite Ei. cbn [bind after]. destruct (is_sep s).
    + cbn [fst snd]. rewrite Hs. cbn [bind]. rewrite slice_from_ok by lia. cbn [bind]. f_equal. unfold extra.
      replace ((o :: q) ++ s :: u) with ((o :: q ++ [s]) ++ u) by (cbn [app]; rewrite <- app_assoc; reflexivity).
      replace (S (length q) + 1) with (length (o :: q ++ [s])) by (cbn [length]; rewrite app_length; cbn [length]; lia). apply skipn_length_app.
    + cbn [fst snd]. rewrite Hs. cbn [bind]. rewrite slice_from_ok by lia. cbn [bind]. rewrite skipn_all. reflexivity.
Qed.

Lemma group_get json o comp r : (o = 91 \/ o = 123)%N -> (sq false 0 (tl (comp ++ r)) = Some r \/ (sq false 0 (tl (comp ++ r)) = None /\ r = [])) ->
  hd 0%N comp = o -> comp <> [] ->
  get json (comp ++ r) =
    ('(res, p) <- multi_exec get json (mkPath comp false false (fst (after r)) 0 (snd (after r))) ;;
     if negb (p_more p) then Ok res else v_get res (p_extra p)).
Proof.
  intros Ho Hsq Hh Hn. rewrite get_spec.
  assert (Es : split_lines (comp ++ r) = (false, comp ++ r)).
  { destruct comp as [|o' q]; [congruence|]. cbn [hd] in Hh. subst o'. unfold split_lines. cbn [app].
    destruct (q ++ r) eqn:E; auto. replace (o =? cDOT)%N with false by (change cDOT with 46%N; lia). reflexivity. }
  rewrite Es. rewrite (pnext_group o comp r) by auto. destruct comp as [|o' q]; [congruence|]. cbn [hd] in Hh. subst o'.
  unfold lget_first. set (p := mkPath _ _ _ _ _ _). assert (Em : is_modifier p = false).
  { unfold is_modifier, p. cbn [p_comp]. change cAT with 64%N. destruct Ho as [-> | ->]; reflexivity. }
  rewrite Em. assert (Eu : is_multipath p = true).
  { unfold is_multipath, p. cbn [p_comp]. destruct Ho as [-> | ->]; reflexivity. }
  rewrite Eu. reflexivity.
Qed.
Lemma after_more r comp : p_more (mkPath comp false false (fst (after r)) 0 (snd (after r))) = negb (fst (after r) =? 0)%N.
Proof. reflexivity. Qed.

(* ---------- the results ---------- *)

Definition multi_open (o : N) : Prop := (o = 91 \/ o = 123)%N.
Lemma closing_close o : bracket_close (closing o).
Proof. unfold closing, bracket_close. destruct (o =? 91)%N; auto. Qed.

(** What a multipath comes to, as a component and a rest. *)
Lemma multi_shape p o b r : multi p o b r -> exists comp, p = comp ++ r /\ comp <> [] /\ hd 0%N comp = o /\
  (sq false 0 (tl (comp ++ r)) = Some r \/ (sq false 0 (tl (comp ++ r)) = None /\ r = [])) /\
  match b with Some q => comp = o :: q ++ [closing o] | None => exists z, idx comp (length comp - 1) = Ok z /\ (multi_open o -> z <> closing o) end.
Proof.
  intros [o' q r' Hq|o' q c r' Hq Hc Hn|o' q Hu|o' t Hu Hn].
  - exists (o' :: q ++ [closing o']). cbn [app hd tl]. rewrite <- app_assoc. cbn [app]. repeat split; auto; try discriminate.
    left. apply sq_close; auto using closing_close.
  - exists (o' :: q ++ [c]). cbn [app hd tl]. rewrite <- app_assoc. cbn [app]. repeat split; auto; try discriminate.
    + left. apply sq_close; auto.
    + exists c. split; auto. apply idx_end.
  - exists (o' :: q ++ [closing o']). rewrite !app_nil_r. cbn [hd tl]. repeat split; auto; try discriminate.
    right. split; auto. apply sq_none, Hu.
  - exists (o' :: t). rewrite !app_nil_r. cbn [hd tl]. repeat split; auto; try discriminate.
    + right. split; auto. apply sq_none, Hu.
    + destruct (rev t) as [|z u] eqn:Er.
      * assert (t = []) as -> by (rewrite <- (rev_involutive t), Er; reflexivity). exists o'. split; [reflexivity|].
        intros [-> | ->]; discriminate.
      * assert (Et : t = rev u ++ [z]) by (rewrite <- (rev_involutive t), Er; reflexivity). exists z. split.
        -- rewrite Et. apply idx_end.
        -- intros _ ->. apply (Hn _ Et).
Qed.

Theorem multi_nothing json p o r : multi_open o -> multi p o None r -> get json p = Ok value_default.
Proof.
  intros Ho H. destruct (multi_shape _ _ _ _ H) as (comp & -> & Hn & Hh & Hsq & z & Hz & Hzo). rewrite (group_get json o) by auto.
  unfold multi_exec. cbn [p_comp]. destruct comp as [|o' t]; [congruence|]. cbn [hd] in Hh. subst o'.
  change (idx (o :: t) 0) with (@Ok N o). cbn [bind]. rewrite usub_ok by (cbn [length]; lia). cbn [bind]. rewrite Hz. cbn [bind].
  specialize (Hzo Ho). change cLBRK with 91%N. change cRBRK with 93%N. change cLBRC with 123%N. change cRBRC with 125%N.
  unfold closing in Hzo. destruct Ho as [-> | ->]; cbn [N.eqb Pos.eqb] in *.
  - replace (z =? 93)%N with false by lia. reflexivity.
  - replace (z =? 125)%N with false by lia. reflexivity.
Qed.

(** What the rest of the path does with the value of the multipath. *)
Definition continue (v : value) (r : text) : R value :=
  match r with s :: u => if is_sep s then v_get v u else Ok v | [] => Ok v end.

Lemma continue_eq v r comp : (if negb (p_more (mkPath comp false false (fst (after r)) 0 (snd (after r)))) then Ok v
  else v_get v (p_extra (mkPath comp false false (fst (after r)) 0 (snd (after r))))) = continue v r.
Proof.
  unfold p_more, continue, after. cbn [p_sep p_extra]. destruct r as [|s u]; [reflexivity|]. destruct (is_sep s) eqn:E; [|reflexivity].
  cbn [fst snd]. rewrite (is_sep_nz _ E). reflexivity.
Qed.

Theorem multi_array_any json p q r es vs : multi p 91%N (Some q) r -> entries q es ->
  Forall2 (fun e v => get json (snd e) = Ok v) es vs -> get json p = continue (marr vs) r.
Proof.
  intros Hm He Hv. destruct (multi_shape _ _ _ _ Hm) as (comp & -> & Hn & Hh & Hsq & Ec).
  change (closing 91) with 93%N in Ec. rewrite (group_get json 91%N) by (auto; left; reflexivity). subst comp. unfold multi_exec. cbn [p_comp].
  change (idx (91%N :: q ++ [93%N]) 0) with (@Ok N 91%N). cbn [bind].
  rewrite usub_ok by (cbn [length]; lia). cbn [bind]. rewrite idx_end. cbn [bind].
  change (91 =? cLBRK)%N with true. change (negb (93 =? cRBRK)%N) with false. cbv iota. rewrite each_comp_spec. unfold comps.
  rewrite (lcomps_entries q es He) by lia. cbn [bind].
  rewrite (multi_arr_run json es vs Hv). change ([cLBRK], 0) with ([91%N], 0). pose proof (push_list0 vs) as E.
  destruct (fold_left push_elem vs ([91%N], 0)) as [out n]. cbn [bind fst] in *. rewrite json_from_owned_eq. cbn [bind].
  change (out ++ [cRBRK]) with (out ++ [93%N]). rewrite E. fold (marr vs). apply continue_eq.
Qed.
Theorem multi_object_any json p q r es vs : multi p 123%N (Some q) r -> entries q es ->
  Forall2 (fun e v => get json (snd e) = Ok v) es vs -> get json p = continue (mobj (combine (map (fun e => fst (epair e)) es) vs)) r.
Proof.
  intros Hm He Hv. destruct (multi_shape _ _ _ _ Hm) as (comp & -> & Hn & Hh & Hsq & Ec).
  change (closing 123) with 125%N in Ec. rewrite (group_get json 123%N) by (auto; right; reflexivity). subst comp. unfold multi_exec. cbn [p_comp].
  change (idx (123%N :: q ++ [125%N]) 0) with (@Ok N 123%N). cbn [bind].
  rewrite usub_ok by (cbn [length]; lia). cbn [bind]. rewrite idx_end. cbn [bind].
  change (123 =? cLBRK)%N with false. change ((123 =? cLBRC)%N && negb (125 =? cRBRC)%N) with false. cbv iota. rewrite each_comp_spec. unfold comps.
  rewrite (lcomps_entries q es He) by lia. cbn [bind].
  rewrite (multi_obj_run json es vs Hv). change ([cLBRC], 0) with ([123%N], 0).
  pose proof (push_membs0 (combine (map (fun e => fst (epair e)) es) vs)) as E.
  destruct (fold_left push_memb _ ([123%N], 0)) as [out n]. cbn [bind fst] in *. rewrite json_from_owned_eq. cbn [bind].
  change (out ++ [cRBRC]) with (out ++ [125%N]). rewrite E. apply continue_eq.
Qed.

Lemma continue_cases v r x : x = continue v r ->
  (forall s u, r = s :: u -> separator s -> x = v_get v u) /\ (~ (exists s u, r = s :: u /\ separator s) -> x = Ok v).
Proof.
  intros ->. split.
  - intros s u -> Hs. apply is_sep_iff in Hs. unfold continue. rewrite Hs. reflexivity.
  - intros H. unfold continue. destruct r as [|s u]; auto. destruct (is_sep s) eqn:E; auto. exfalso. apply H. exists s, u. split; auto. apply is_sep_iff, E.
Qed.
Theorem array_any json p q r es vs : multi p 91%N (Some q) r -> entries q es -> Forall2 (fun e v => get json (snd e) = Ok v) es vs ->
  exists v, v_exists v = true /\ v_kind v = KArray /\ v_json v = 91%N :: commas (map v_json (filter v_exists vs)) ++ [93%N] /\
    (forall s u, r = s :: u -> separator s -> get json p = v_get v u) /\ (~ (exists s u, r = s :: u /\ separator s) -> get json p = Ok v).
Proof.
  intros Hm He Hv. exists (marr vs). split; [reflexivity|]. split; [reflexivity|]. split; [reflexivity|].
  apply continue_cases, (multi_array_any json p q r es vs); auto.
Qed.
Theorem object_any json p q r es vs : multi p 123%N (Some q) r -> entries q es -> Forall2 (fun e v => get json (snd e) = Ok v) es vs ->
  exists v ks, v_exists v = true /\ v_kind v = KObject /\ Forall2 entry_key es ks /\
    v_json v = 123%N :: commas (map (fun kv => escape (fst kv) ++ 58%N :: v_json (snd kv)) (filter (fun kv => v_exists (snd kv)) (combine ks vs))) ++ [125%N] /\
    (forall s u, r = s :: u -> separator s -> get json p = v_get v u) /\ (~ (exists s u, r = s :: u /\ separator s) -> get json p = Ok v).
Proof.
  intros Hm He Hv. set (ks := map (fun e => fst (epair e)) es). exists (mobj (combine ks vs)), ks. split; [reflexivity|]. split; [reflexivity|].
  split; [|split; [reflexivity|]].
  - unfold ks. clear. induction es as [|e es IH]; constructor; auto. apply epair_key.
  - apply continue_cases, (multi_object_any json p q r es vs); auto.
Qed.

Lemma multi_arr_panic json es : Exists (fun e => get json (snd e) = Err EPanic) es -> (forall p, (exists v, get json p = Ok v) \/ get json p = Err EPanic) ->
  forall st, multi_arr get json (map epair es) st = Err EPanic.
Proof.
  intros H G. induction es as [|e es IH]; intros st; [inversion H|]. cbn [map]. destruct (epair e) as [k p] eqn:Ep.
  assert (p = snd e) as -> by (destruct e as [[n|] q]; injection Ep as _ <-; reflexivity). cbn [multi_arr].
  destruct (G (snd e)) as [(v & Ev)|Ev]; rewrite Ev; cbn [bind]; auto. apply IH. inversion H; subst; auto. congruence.
Qed.
Lemma multi_obj_panic json es : Exists (fun e => get json (snd e) = Err EPanic) es -> (forall p, (exists v, get json p = Ok v) \/ get json p = Err EPanic) ->
  forall st, multi_obj get json (map epair es) st = Err EPanic.
Proof.
  intros H G. induction es as [|e es IH]; intros [out n]; [inversion H|]. cbn [map]. destruct (epair e) as [k p] eqn:Ep.
  assert (p = snd e) as -> by (destruct e as [[m|] q]; injection Ep as _ <-; reflexivity). cbn [multi_obj].
  destruct (G (snd e)) as [(v & Ev)|Ev]; rewrite Ev; cbn [bind]; auto. apply IH. inversion H; subst; auto. congruence.
Qed.
Theorem multi_panic json p o q r es : multi_open o -> multi p o (Some q) r -> entries q es ->
  Exists (fun e => get json (snd e) = Err EPanic) es -> get json p = Err EPanic.
Proof.
  intros Ho Hm He Hx. destruct (multi_shape _ _ _ _ Hm) as (comp & -> & Hn & Hh & Hsq & Ec).
  rewrite (group_get json o) by auto. subst comp. unfold multi_exec. cbn [p_comp].
  change (idx (o :: q ++ [closing o]) 0) with (@Ok N o). cbn [bind]. rewrite usub_ok by (cbn [length]; lia). cbn [bind]. rewrite idx_end. cbn [bind].
  rewrite each_comp_spec. unfold comps. rewrite (lcomps_entries q es He) by lia. cbn [bind].
  destruct Ho as [-> | ->].
  - change (91 =? cLBRK)%N with true. change (negb (closing 91 =? cRBRK)%N) with false. cbv iota.
    rewrite (multi_arr_panic json es Hx (get_no_hang json)). reflexivity.
  - change (123 =? cLBRK)%N with false. change ((123 =? cLBRC)%N && negb (closing 123 =? cRBRC)%N) with false. cbv iota.
    rewrite (multi_obj_panic json es Hx (get_no_hang json)). reflexivity.
Qed.

(* ---------- names in quotes ---------- *)

Lemma quoted_name json n p v : literal true n -> sub_path p -> get json p = Ok v ->
  exists w, get json (bs "{" ++ quoted n ++ bs ":" ++ p ++ bs "}") = Ok w /\
    v_json w = bs "{" ++ (if v_exists v then escape (quoted n) ++ bs ":" ++ v_json v else []) ++ bs "}".
Proof.
  intros Hn Hp Hv. assert (Hs : sub_name (quoted n)) by (rewrite <- (app_nil_r (quoted n)); apply pt_quoted; [exact Hn | apply pt_nil]).
  destruct (entry_split_object json (quoted n) p v Hs Hp Hv) as (w & W1 & W2). exists w. split; [|exact W2].
  rewrite <- app_assoc in W1. exact W1.
Qed.
Lemma quoted_name_refuted : exists json n p v w, Forall plain n /\ get json p = Ok v /\ v_exists v = true /\
  get json (bs "{" ++ quoted n ++ bs ":" ++ p ++ bs "}") = Ok w /\
  v_json w <> bs "{" ++ escape n ++ bs ":" ++ v_json v ++ bs "}".
Proof.
  exists (bs "{""a"":1}"), (bs "k"), (bs "a"). eexists. eexists. split; [repeat constructor; discriminate|].
  split; [vm_compute; reflexivity|]. split; [reflexivity|]. split; [vm_compute; reflexivity|]. vm_compute. discriminate.
Qed.

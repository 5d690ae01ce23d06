(** Queries on one element. *)
From Verif Require Import P_Base P_Json P_Valid P_Str P_Glob P_Scan P_Each P_Doc P_Path P_LGet P_Parts P_Ext P_Value P_Num
  P_Key P_Find P_GetDoc P_GetArr P_POut M_Util M_Num M_Scan M_Value M_Path M_Get S_Json S_Str S_Tree S_Get S_Path S_Query.

(* ---------- finding the operator ---------- *)

Lemma lfind_deep c t d : c <> 92%N -> c <> 40%N -> c <> 41%N -> (0 < d)%Z -> lfind (c :: t) d = lfind t d.
Proof.
  intros H1 H2 H3 H4. cbn [lfind]. replace (c =? 92)%N with false by lia. replace (c =? 40)%N with false by lia.
  replace (c =? 41)%N with false by lia. replace (0 <? d)%Z with true by lia. reflexivity.
Qed.
Lemma lfind_esc c t d : lfind (92%N :: c :: t) d = lfind t d.
Proof. reflexivity. Qed.
Lemma lfind_quotable b : quotable b -> Forall (fun c => ~ paren c) b -> forall r d, (0 < d)%Z -> lfind (b ++ r) d = lfind r d.
Proof.
  unfold paren. induction 1 as [|c t H1 H2 Ht IH|c t Ht IH]; intros Hp r d Hd; auto.
  - inversion Hp as [|c' t' Hc' Ht']; subst. cbn [app]. rewrite lfind_deep by lia. auto.
  - inversion Hp as [|c' t' Hc' Ht']; subst. inversion Ht' as [|c2 t2 Hc2 Ht2]; subst. cbn [app lfind N.eqb Pos.eqb]. auto.
Qed.
Lemma lfind_inner q : inner q -> forall r d, (0 < d)%Z -> lfind (q ++ r) d = lfind r d.
Proof.
  induction 1 as [|c t (H1 & H2 & H3 & H4) Ht IH|c t Ht IH|b t Hb Hp Ht IH|q t Hq IHq Ht IH]; intros r d Hd; auto.
  - cbn [app]. unfold bracket_open, bracket_close in *. rewrite lfind_deep by lia. auto.
  - cbn [app lfind N.eqb Pos.eqb]. auto.
  - unfold quoted. cbn [app]. rewrite lfind_deep by lia. rewrite <- !app_assoc. cbn [app]. rewrite lfind_quotable by auto.
    rewrite lfind_deep by lia. auto.
  - cbn [app]. rewrite <- app_assoc. cbn [app]. cbn [lfind N.eqb Pos.eqb]. rewrite IHq by lia. cbn [lfind N.eqb Pos.eqb].
    replace (d + 1 - 1)%Z with d by lia. auto.
Qed.
Lemma lfind_flat c t : plain_byte c -> ~ op_byte c -> lfind (c :: t) 0 = lfind t 0.
Proof.
  intros (H1 & H2 & H3 & H4) Ho. unfold bracket_open, bracket_close, op_byte in *. cbn [In] in Ho. cbn [lfind].
  replace (c =? 92)%N with false by lia. replace (c =? 40)%N with false by lia.
  replace (c =? 41)%N with false by lia. change (0 <? 0)%Z with false. cbv match.
  replace (c =? 37)%N with false by lia. replace (c =? 33)%N with false by lia.
  replace ((c =? 61) || (c =? 60) || (c =? 62))%N with false by lia. reflexivity.
Qed.
Lemma lfind_lhs l : lhs_text l -> forall r, lfind (l ++ r) 0 = lfind r 0.
Proof.
  induction 1 as [|c t H1 H2 Ht IH|c t Ht IH|q t Hq Ht IH]; intros r; auto.
  - cbn [app]. rewrite lfind_flat; auto.
  - cbn [app lfind N.eqb Pos.eqb]. auto.
  - cbn [app]. rewrite <- app_assoc. cbn [app]. cbn [lfind N.eqb Pos.eqb]. rewrite lfind_inner by (auto; lia).
    cbn [lfind N.eqb Pos.eqb]. auto.
Qed.
Lemma blank_lhs s : blank s -> lhs_text s.
Proof.
  induction 1 as [|c t Hc _ IH]; constructor; auto.
  - unfold plain_byte, bracket_open, bracket_close. lia.
  - unfold op_byte. cbn [In]. lia.
Qed.
Lemma lfind_op o e : hd 0%N e <> 61%N -> lfind (op_text o ++ e) 0 = Some (op_text o ++ e, e).
Proof.
  intros He. destruct o; cbn [op_text app lfind N.eqb Pos.eqb Z.ltb Z.compare orb]; try reflexivity;
    (destruct e as [|c t]; [reflexivity|]; cbn [hd] in He; replace (c =? 61)%N with false by lia; reflexivity).
Qed.

(* ---------- the query is balanced ---------- *)

Lemma balanced_app a b : balanced a -> balanced b -> balanced (a ++ b).
Proof.
  induction 1 as [|c t H1 H2 H3 H4 Ht IH|c t Ht IH|s t Hs Ht IH|o q c t Ho Hq IHq Hc Ht IH]; intros Hb; auto.
  - cbn [app]. constructor; auto.
  - cbn [app]. apply bal_esc; auto.
  - rewrite <- app_assoc. apply bal_string; auto.
  - cbn [app]. rewrite <- app_assoc. cbn [app]. apply bal_group; auto.
Qed.
Lemma balanced_inner q : inner q -> balanced q.
Proof.
  induction 1 as [|c t (H1 & H2 & H3 & H4) Ht IH|c t Ht IH|b t Hb Hp Ht IH|q t Hq IHq Ht IH].
  - constructor.
  - apply bal_char; auto.
  - apply bal_esc; auto.
  - apply bal_string; auto.
  - apply bal_group; auto; [left | left]; reflexivity.
Qed.
Lemma balanced_lhs l : lhs_text l -> balanced l.
Proof.
  induction 1 as [|c t (H1 & H2 & H3 & H4) Ho Ht IH|c t Ht IH|q t Hq Ht IH].
  - constructor.
  - apply bal_char; auto.
  - apply bal_esc; auto.
  - apply bal_group; auto; [left | apply balanced_inner; auto | left]; reflexivity.
Qed.
Lemma balanced_blank s : blank s -> balanced s.
Proof. intros H. apply balanced_lhs, blank_lhs, H. Qed.
Lemma balanced_op o : balanced (op_text o).
Proof.
  assert (H : forall l, Forall plain_byte l -> balanced l).
  { induction 1 as [|c t (H1 & H2 & H3 & H4) _ IH]; constructor; auto. }
  apply H. unfold plain_byte, bracket_open, bracket_close. destruct o; repeat constructor; lia.
Qed.
Lemma balanced_query s0 l s1 o s2 r s3 : blank s0 -> lhs_text l -> blank s1 -> blank s2 -> balanced r -> blank s3 ->
  balanced (query s0 l s1 o s2 r s3).
Proof.
  intros. unfold query. repeat apply balanced_app; auto using balanced_blank, balanced_lhs, balanced_op.
Qed.

(* ---------- trimming ---------- *)

Lemma trim_start_blank s t : blank s -> trim_start (s ++ t) = trim_start t.
Proof. induction 1 as [|c s Hc _ IH]; auto. cbn [app trim_start]. replace (c <=? 32)%N with true by lia. auto. Qed.
Lemma trim_start_id t : (32 < hd 33 t)%N -> trim_start t = t.
Proof. destruct t as [|c t]; auto. cbn [hd trim_start]. intros H. replace (c <=? 32)%N with false by lia. reflexivity. Qed.
Lemma trim_end_all s : blank s -> trim_end s = [].
Proof. induction 1 as [|c s Hc _ IH]; auto. cbn [trim_end]. rewrite IH. replace (c <=? 32)%N with true by lia. reflexivity. Qed.
Lemma trim_end_blank t s : blank s -> trim_end (t ++ s) = trim_end t.
Proof.
  intros H. induction t as [|c t IH]; cbn [app]; [apply trim_end_all; auto|]. cbn [trim_end]. rewrite IH. reflexivity.
Qed.
Lemma trim_end_id t : (32 < last t 33)%N -> trim_end t = t.
Proof.
  induction t as [|c t IH]; auto. intros H. cbn [trim_end]. destruct t as [|d t].
  - cbn [last] in H. cbn [trim_end]. replace (c <=? 32)%N with false by lia. reflexivity.
  - rewrite IH; auto.
Qed.
Lemma last_default (t : bytes) a b : t <> [] -> last t a = last t b.
Proof. induction t as [|c t IH]; [congruence|]. intros _. destruct t as [|d t]; auto. cbn [last] in *. apply IH. discriminate. Qed.
Lemma trimmed_ends t : trimmed t -> (32 < hd 33 t)%N /\ (32 < last t 33)%N.
Proof.
  intros [->|[H1 H2]]; [cbn; lia|]. destruct t as [|c t]; [cbn in H1; lia|]. split; [exact H1|].
  rewrite (last_default _ 33%N 0%N) by discriminate. exact H2.
Qed.
Lemma trim_blanks a t b : blank a -> trimmed t -> blank b -> trim (a ++ t ++ b) = t.
Proof.
  intros Ha Ht Hb. apply trimmed_ends in Ht as [H1 H2]. unfold trim. rewrite trim_start_blank by auto.
  destruct t as [|c t].
  - cbn [app]. rewrite <- (app_nil_r b), trim_start_blank by auto. reflexivity.
  - rewrite trim_start_id by (cbn [app hd] in *; auto). rewrite trim_end_blank by auto. apply trim_end_id; auto.
Qed.
Lemma last_app_ne (a b : bytes) d : b <> [] -> last (a ++ b) d = last b d.
Proof.
  intros Hb. induction a as [|x a IH]; auto. cbn [app]. rewrite <- IH. destruct (a ++ b) eqn:E; auto.
  destruct a; cbn in E; congruence.
Qed.
Lemma op_trimmed o : trimmed (op_text o).
Proof. destruct o; right; cbn; lia. Qed.
Lemma op_ne o : op_text o <> [].
Proof. destruct o; discriminate. Qed.

(** Dropping the outer blanks of a query. *)
Lemma trim_query s0 l s1 o s2 r s3 : blank s0 -> trimmed l -> blank s1 -> blank s2 -> trimmed r -> blank s3 ->
  trim (query s0 l s1 o s2 r s3) =
    (match l with [] => [] | _ => l ++ s1 end) ++ op_text o ++ (match r with [] => [] | _ => s2 ++ r end).
Proof.
  intros H0 Hl H1 H2 Hr H3. unfold query.
  set (L := match l with [] => [] | _ => l ++ s1 end). set (R := match r with [] => [] | _ => s2 ++ r end).
  assert (E : exists a b, blank a /\ blank b /\ s0 ++ l ++ s1 ++ op_text o ++ s2 ++ r ++ s3 = a ++ (L ++ op_text o ++ R) ++ b).
  { exists (match l with [] => s0 ++ s1 | _ => s0 end), (match r with [] => s2 ++ s3 | _ => s3 end).
    unfold blank in *. split; [destruct l; auto; apply Forall_app; auto|]. split; [destruct r; auto; apply Forall_app; auto|].
    unfold L, R. destruct l, r; rewrite <- ?app_assoc; cbn [app]; rewrite <- ?app_assoc; reflexivity. }
  destruct E as (a & b & Ha & Hb & ->). apply trim_blanks; auto. right. split.
  - unfold L. destruct l as [|c l]; [destruct o; cbn; lia|]. destruct Hl as [Hl|[Hl _]]; [discriminate | exact Hl].
  - rewrite last_app_ne by (destruct o; discriminate). unfold R. destruct r as [|c r].
    + rewrite app_nil_r. destruct o; cbn; lia.
    + rewrite last_app_ne by (destruct s2; discriminate). rewrite last_app_ne by discriminate.
      destruct Hr as [Hr|[_ Hr]]; [discriminate | exact Hr].
Qed.

Lemma upto_app (k : bytes) r : upto (k ++ r) r = k.
Proof. apply upto_sep. Qed.

Lemma qparts_query s0 l s1 o s2 r s3 : blank s0 -> lhs l -> blank s1 -> blank s2 -> trimmed r -> blank s3 ->
  (s2 ++ r = [] \/ hd 0%N (s2 ++ r) <> 61%N) ->
  qparts (query s0 l s1 o s2 r s3) = (l, norm_op (op_text o), r).
Proof.
  intros H0 [Hl Htl] H1 H2 Hr H3 Hh. unfold qparts. rewrite trim_query by auto. cbv zeta.
  set (L := match l with [] => [] | _ => l ++ s1 end). set (R := match r with [] => [] | _ => s2 ++ r end).
  assert (Ef : lfind (L ++ op_text o ++ R) 0 = Some (op_text o ++ R, R)).
  { assert (HL : forall x, lfind (L ++ x) 0 = lfind x 0).
    { intros x. unfold L. destruct l as [|c l]; auto. rewrite <- app_assoc, lfind_lhs by auto. apply lfind_lhs, blank_lhs; auto. }
    rewrite HL. apply lfind_op. unfold R. destruct r as [|c r]; [cbn; lia|].
    destruct Hh as [Hh|Hh]; auto. destruct s2; discriminate. }
  rewrite Ef. rewrite !upto_app.
  assert (T1 : trim L = l).
  { unfold L. destruct l as [|c l]; [reflexivity|]. apply (trim_blanks [] (c :: l) s1); auto. constructor. }
  assert (T2 : trim R = r).
  { unfold R. destruct r as [|c r]; [reflexivity|]. rewrite <- (app_nil_r (c :: r)) at 1. apply (trim_blanks s2 (c :: r) []); auto. constructor. }
  assert (T3 : trim (op_text o) = op_text o).
  { rewrite <- (app_nil_r (op_text o)) at 1. apply (trim_blanks [] (op_text o) []); auto using op_trimmed; constructor. }
  rewrite T1, T2, T3. reflexivity.
Qed.
Lemma lfind_none l : lhs_text l -> lfind l 0 = None.
Proof. intros H. rewrite <- (app_nil_r l), lfind_lhs by auto. reflexivity. Qed.
Lemma qparts_exists s0 l s1 : blank s0 -> lhs l -> blank s1 -> qparts (s0 ++ l ++ s1) = (l, [], []).
Proof.
  intros H0 [Hl Htl] H1. unfold qparts. rewrite trim_blanks by auto. cbv zeta. rewrite lfind_none by auto. reflexivity.
Qed.

(* ---------- the element itself as the left-hand side ---------- *)

Lemma shows_v_i64 x c ix : wf c -> shows x c -> v_i64 x = v_i64 (tval c ix).
Proof.
  intros Hc Hx. pose proof (tval_shows c ix Hc) as Ht. unfold v_i64.
  rewrite (sh_kind _ _ Hx), (sh_kind _ _ Ht), (sh_json _ _ Hx), (sh_json _ _ Ht).
  destruct (kind_of c) eqn:E; auto. assert (exists b, c = CStr b) as (b & ->) by (destruct c; cbn in E; try discriminate; eauto).
  rewrite (string_text_shows x b Hx), (string_text_shows _ b Ht), (sh_str _ _ Hx), (sh_str _ _ Ht). reflexivity.
Qed.
Lemma shows_v_bool x c ix : wf c -> shows x c -> v_bool x = v_bool (tval c ix).
Proof.
  intros Hc Hx. pose proof (tval_shows c ix Hc) as Ht. unfold v_bool.
  rewrite (sh_json _ _ Hx), (sh_json _ _ Ht), (shows_v_i64 x c ix) by auto. reflexivity.
Qed.
Lemma shows_compare x c ix op r : wf c -> shows x c -> query_compare x op r = query_compare (tval c ix) op r.
Proof.
  intros Hc Hx. pose proof (tval_shows c ix Hc) as Ht. unfold query_compare.
  rewrite (sh_kind _ _ Hx), (sh_kind _ _ Ht). destruct (kind_of c) eqn:E; auto.
  - unfold query_number, v_f64. rewrite (sh_kind _ _ Hx), (sh_kind _ _ Ht), E, (sh_json _ _ Hx), (sh_json _ _ Ht). reflexivity.
  - unfold query_string. rewrite (sh_str _ _ Hx), (sh_str _ _ Ht). reflexivity.
Qed.
Lemma shows_matches x c ix op r : wf c -> shows x c -> query_matches x op r = query_matches (tval c ix) op r.
Proof.
  intros Hc Hx. pose proof (tval_shows c ix Hc) as Ht. unfold query_matches.
  assert (G : (if negb (v_exists x) then Ok false else match op with [] => Ok true | _ => query_compare x op r end) =
              (if negb (v_exists (tval c ix)) then Ok false else match op with [] => Ok true | _ => query_compare (tval c ix) op r end)).
  { rewrite (sh_exists _ _ Hx), (sh_exists _ _ Ht). destruct op; auto. apply (shows_compare x c); auto. }
  destruct (query_rhs r) as [[|a t]|e]; cbn [bind]; auto.
  - rewrite (sh_exists _ _ Hx), (sh_exists _ _ Ht). destruct op; auto. apply (shows_compare x c); auto.
  - destruct (a =? cTILDE)%N; [rewrite (shows_v_bool x c ix) by auto; reflexivity|]. cbn [bind].
    rewrite (sh_exists _ _ Hx), (sh_exists _ _ Ht). destruct op; auto. apply (shows_compare x c); auto.
Qed.

(** The meaning of a query on one element, up to [query_matches]. *)
Lemma lhs_matches c l x op r : wf c -> lhs_of c l x ->
  elem_matches get (tval c None) l op r = query_matches x op r.
Proof.
  intros Hc Hx. unfold elem_matches. destruct l as [|a l].
  - symmetry. apply shows_matches; auto.
  - cbn [lhs_of] in Hx. rewrite v_get_tval by auto. rewrite Hx. cbn [bind].
    change (add_index None x) with (setix x None). apply query_matches_ix.
Qed.
Lemma holds_query c s0 l s1 o s2 r s3 x b : wf c -> blank s0 -> lhs l -> blank s1 -> blank s2 -> trimmed r -> balanced r -> blank s3 ->
  (s2 ++ r = [] \/ hd 0%N (s2 ++ r) <> 61%N) -> lhs_of c l x ->
  query_matches x (norm_op (op_text o)) r = Ok b -> q_holds c (query s0 l s1 o s2 r s3) b.
Proof.
  intros Hc H0 Hl H1 H2 Hr Hbr H3 Hh Hx Hm. apply q_holds_ematch; auto.
  - apply balanced_query; auto. apply Hl.
  - unfold ematch. rewrite qparts_query by auto. rewrite (lhs_matches c l x); auto.
Qed.
Lemma holds_exists c s0 l s1 x : wf c -> blank s0 -> lhs l -> blank s1 -> lhs_of c l x ->
  q_holds c (s0 ++ l ++ s1) (v_exists x).
Proof.
  intros Hc H0 Hl H1 Hx. apply q_holds_ematch; auto.
  - repeat apply balanced_app; auto using balanced_blank. apply balanced_lhs, Hl.
  - unfold ematch. rewrite qparts_exists by auto. rewrite (lhs_matches c l x); auto.
    unfold query_matches. cbn. destruct (v_exists x); reflexivity.
Qed.

(* ---------- meaning of the comparisons ---------- *)

Lemma asks_holds c x q o r b : wf c -> asks c x q o r -> trimmed r -> balanced r -> hd 0%N r <> 61%N ->
  query_matches x (norm_op (op_text o)) r = Ok b -> q_holds c q b.
Proof.
  intros Hc (s0 & l & s1 & s2 & s3 & H0 & Hl & H1 & H2 & H3 & -> & Hx) Hr Hb Hh Hm.
  eapply holds_query; eauto. right. destruct s2 as [|a s2]; auto. inversion H2; subst. cbn [app hd]. lia.
Qed.
Lemma query_rhs_quoted b r : chars b -> b <> [] -> unescape (quoted b) = Ok r -> query_rhs (quoted b) = Ok r.
Proof.
  intros Hb Hn Hr. unfold query_rhs, quoted.
  assert (Hlen : length (34%N :: b ++ [34%N]) = S (length b + 1)) by (cbn [length]; rewrite app_length; reflexivity).
  rewrite Hlen. destruct b as [|a b']; [congruence|]. set (b := a :: b') in *.
  replace (2 <? S (length b + 1)) with true by (unfold b; cbn [length]; lia).
  change (idx (34%N :: b ++ [34%N]) 0) with (@Ok N 34%N). cbn [bind]. rewrite usub_ok by lia. cbn [bind].
  assert (Hz : idx (34%N :: b ++ [34%N]) (S (length b + 1) - 1) = Ok 34%N).
  { pose proof (idx_last (34%N :: b) 34%N) as H. change ((34%N :: b) ++ [34%N]) with (34%N :: b ++ [34%N]) in H. rewrite Hlen in H. exact H. }
  rewrite Hz. cbn [bind]. change ((34 =? cQUOTE)%N && (34 =? cQUOTE)%N) with true. cbv match.
  destruct (existsb (fun c => (c =? cBSL)%N) (34%N :: b ++ [34%N])) eqn:E; [exact Hr|].
  rewrite sdec_chars in Hr by auto. injection Hr as <-.
  assert (Hs : slice (34%N :: b ++ [34%N]) 1 (S (length b + 1) - 1) = Ok b).
  { apply (slice_mid [34%N] b [34%N]); cbn [length]; lia. }
  rewrite Hs. f_equal. unfold sdec. replace (hasbsl b) with false; auto. symmetry.
  cbn [existsb] in E. rewrite existsb_app in E. apply orb_false_iff in E as [_ E]. apply orb_false_iff in E as [E _]. exact E.
Qed.
Lemma idx_lt (l : bytes) i : i < length l -> exists z, idx l i = Ok z.
Proof.
  intros H. unfold idx. destruct (nth_error l i) eqn:E; eauto. apply nth_error_None in E. lia.
Qed.
Lemma query_rhs_bare r : hd 0%N r <> 34%N -> query_rhs r = Ok r.
Proof.
  intros H. unfold query_rhs. destruct (2 <? length r) eqn:E; auto.
  destruct r as [|a [|b r]]; cbn [length] in E; try (exfalso; lia). cbn [hd] in H.
  change (idx (a :: b :: r) 0) with (Ok a). cbn [bind]. rewrite usub_ok by (cbn [length]; lia). cbn [bind].
  destruct (idx_lt (a :: b :: r) (length (a :: b :: r) - 1) ltac:(cbn [length]; lia)) as (z & ->). cbn [bind]. replace (a =? cQUOTE)%N with false by (change cQUOTE with 34%N; lia). reflexivity.
Qed.
Lemma query_matches_eq x o r r' : query_rhs r = Ok r' -> hd 0%N r' <> 126%N -> v_exists x = true ->
  query_matches x (norm_op (op_text o)) r = query_compare x (norm_op (op_text o)) r'.
Proof.
  intros Hr Ht Hx. unfold query_matches. rewrite Hr. cbn [bind].
  assert (E : (match r' with c :: t => if (c =? cTILDE)%N then b <- v_bool x ;;
           Ok (if b : bool then mkValue lit_true [] [] INFO_TRUE None else mkValue lit_false [] [] INFO_FALSE None, t)
         else Ok (x, r') | [] => Ok (x, r') end) = Ok (x, r')).
  { destruct r' as [|a t]; auto. cbn [hd] in Ht. replace (a =? cTILDE)%N with false by (change cTILDE with 126%N; lia). reflexivity. }
  rewrite E. cbn [bind]. rewrite Hx. cbn [negb]. destruct o; reflexivity.
Qed.

Lemma text_lt_bcmp a b : bcmp a b = Lt <-> text_lt a b.
Proof.
  assert (Hirr : ~ text_lt a b \/ a <> b).
  { destruct (list_eq_dec N.eq_dec a b) as [->|H]; auto. left. intros [(y & t & E)|(p & x & y & s & t & E1 & E2 & H)].
    - apply (f_equal (@length N)) in E. rewrite app_length in E. cbn [length] in E. lia.
    - rewrite E1 in E2. apply app_inv_head in E2. injection E2 as -> _. lia. }
  pose proof (le_text_app a b) as H. rewrite le_text_bcmp in H.
  assert (H' : text_lt a b <-> (exists p y t, a = p /\ b = p ++ y :: t) \/
    (exists p x y s t, a = p ++ x :: s /\ b = p ++ y :: t /\ (x < y)%N)).
  { unfold text_lt. split; intros [H1|H1]; auto; left.
    - destruct H1 as (y & t & E). exists a, y, t. auto.
    - destruct H1 as (p & y & t & -> & E). eauto. }
  rewrite H'. split.
  - intros E. rewrite E in H. destruct (proj1 H eq_refl) as [->|H1]; auto.
    rewrite (proj2 (bcmp_eq b b) eq_refl) in E. discriminate.
  - intros E. assert (Hle := proj2 H (or_intror E)). destruct (bcmp a b) eqn:Eb; auto; [|discriminate].
    apply bcmp_eq in Eb. subst. destruct Hirr as [Hirr|Hirr]; [|congruence]. exfalso. apply Hirr, H', E.
Qed.
Lemma text_gt_bcmp a b : bcmp a b = Gt <-> text_lt b a.
Proof.
  rewrite <- text_lt_bcmp, bcmp_antisym. destruct (bcmp b a); cbn; split; congruence.
Qed.

Lemma string_compare x o s r : v_kind x = KString -> v_str x = Ok s -> is_like o = false ->
  exists t, query_compare x (norm_op (op_text o)) r = Ok t /\ (t = true <-> op_rel text_lt o s r).
Proof.
  intros Hk Hs Ho. unfold query_compare. rewrite Hk. unfold query_string. rewrite Hs. cbn [bind].
  destruct o; try discriminate; cbn [op_rel]; (eexists; split; [reflexivity|]).
  - apply beq_eq.
  - apply beq_eq.
  - rewrite negb_true_iff. rewrite <- beq_eq. destruct (beq s r); intuition congruence.
  - rewrite <- text_lt_bcmp. destruct (bcmp s r); intuition congruence.
  - rewrite <- text_lt_bcmp, <- bcmp_eq. destruct (bcmp s r); intuition congruence.
  - rewrite <- text_gt_bcmp. destruct (bcmp s r); intuition congruence.
  - rewrite <- text_gt_bcmp, <- bcmp_eq. destruct (bcmp s r); intuition congruence.
Qed.

Lemma quoted_trimmed b : trimmed (quoted b).
Proof. right. unfold quoted. split; [cbn; lia|]. change (34%N :: b ++ [34%N]) with ((34%N :: b) ++ [34%N]). rewrite last_last. lia. Qed.
Lemma quoted_balanced b : chars b -> balanced (quoted b).
Proof. intros H. rewrite <- (app_nil_r (quoted b)). apply bal_string; [apply chars_quotable; auto | constructor]. Qed.

Lemma holds_string c x q o b s r : wf c -> asks c x q o (quoted b) -> chars b ->
  v_exists x = true -> v_kind x = KString -> v_str x = Ok s -> unescape (quoted b) = Ok r ->
  b <> [] -> hd 0%N r <> 126%N -> is_like o = false ->
  exists t, q_holds c q t /\ (t = true <-> op_rel text_lt o s r).
Proof.
  intros Hc Ha Hb He Hk Hs Hr Hn Ht Ho. destruct (string_compare x o s r Hk Hs Ho) as (t & Et & Hrel).
  exists t. split; auto. eapply asks_holds; eauto using quoted_trimmed, quoted_balanced; [cbn; lia|].
  rewrite (query_matches_eq x o _ r) by auto using query_rhs_quoted. exact Et.
Qed.
Lemma holds_string_bare c x q o s r : wf c -> asks c x q o r -> bare r ->
  v_exists x = true -> v_kind x = KString -> v_str x = Ok s -> is_like o = false ->
  exists t, q_holds c q t /\ (t = true <-> op_rel text_lt o s r).
Proof.
  intros Hc Ha (H1 & H2 & H3 & H4 & H5) He Hk Hs Ho. destruct (string_compare x o s r Hk Hs Ho) as (t & Et & Hrel).
  exists t. split; auto. eapply asks_holds; eauto.
  rewrite (query_matches_eq x o _ r) by auto using query_rhs_bare. exact Et.
Qed.

(** The pattern operators. *)
Lemma like_compare x o s r : v_kind x = KString -> v_str x = Ok s -> is_like o = true ->
  exists m, pmatch r s = Ok m /\ query_compare x (norm_op (op_text o)) r = Ok (match o with QLike => m | _ => negb m end).
Proof.
  intros Hk Hs Ho. unfold query_compare. rewrite Hk. unfold query_string. rewrite Hs. cbn [bind].
  destruct (pmatch_spec r s) as (m & Em & _). exists m. split; auto.
  destruct o; try discriminate; cbn -[pmatch]; rewrite Em; reflexivity.
Qed.
Lemma holds_like c x q o b s r : wf c -> asks c x q o (quoted b) -> chars b ->
  v_exists x = true -> v_kind x = KString -> v_str x = Ok s -> unescape (quoted b) = Ok r ->
  b <> [] -> hd 0%N r <> 126%N -> is_like o = true ->
  exists m, pmatch r s = Ok m /\ q_holds c q (match o with QLike => m | _ => negb m end).
Proof.
  intros Hc Ha Hb He Hk Hs Hr Hn Ht Ho. destruct (like_compare x o s r Hk Hs Ho) as (m & Em & Hm).
  exists m. split; auto. eapply asks_holds; eauto using quoted_trimmed, quoted_balanced; [cbn; lia|].
  rewrite (query_matches_eq x o _ r) by auto using query_rhs_quoted. exact Hm.
Qed.
Lemma holds_like_glob c x q b s r : wf c -> asks c x q QLike (quoted b) -> chars b ->
  v_exists x = true -> v_kind x = KString -> v_str x = Ok s -> unescape (quoted b) = Ok r ->
  b <> [] -> hd 0%N r <> 126%N ->
  (no_escaped_qm r /\ ascii s) \/ (~ In 0x3F%N r /\ utf8 r /\ utf8 s) ->
  exists t, q_holds c q t /\ (t = true <-> glob utf8_char r s).
Proof.
  intros Hc Ha Hb He Hk Hs Hr Hn Ht Hg. destruct (holds_like c x q QLike b s r) as (m & Em & Hm); auto.
  destruct (pmatch_glob_doc r s Hg) as (m' & Em' & Hm'). rewrite Em in Em'. injection Em' as <-. eauto.
Qed.
Lemma holds_not_like_glob c x q b s r : wf c -> asks c x q QNotLike (quoted b) -> chars b ->
  v_exists x = true -> v_kind x = KString -> v_str x = Ok s -> unescape (quoted b) = Ok r ->
  b <> [] -> hd 0%N r <> 126%N ->
  (no_escaped_qm r /\ ascii s) \/ (~ In 0x3F%N r /\ utf8 r /\ utf8 s) ->
  exists t, q_holds c q t /\ (t = true <-> ~ glob utf8_char r s).
Proof.
  intros Hc Ha Hb He Hk Hs Hr Hn Ht Hg. destruct (holds_like c x q QNotLike b s r) as (m & Em & Hm); auto.
  destruct (pmatch_glob_doc r s Hg) as (m' & Em' & Hm'). rewrite Em in Em'. injection Em' as <-. exists (negb m).
  split; auto. rewrite <- Hm'. destruct m; cbn; intuition congruence.
Qed.

(** Booleans. *)
Lemma bool_text_bare b : bare (bool_text b).
Proof.
  assert (H : forall l, Forall plain_byte l -> balanced l).
  { induction 1 as [|c t (H1 & H2 & H3 & H4) _ IH]; constructor; auto. }
  split; [right; destruct b; cbn; lia|]. split; [|destruct b; cbn; lia].
  apply H. unfold plain_byte, bracket_open, bracket_close. destruct b; repeat constructor; lia.
Qed.
Lemma bool_compare x o a b : v_kind x = bool_kind a -> is_like o = false -> o <> QLe -> o <> QGe ->
  exists t, query_compare x (norm_op (op_text o)) (bool_text b) = Ok t /\ (t = true <-> op_rel bool_lt o a b).
Proof.
  intros Hk Ho H1 H2. unfold query_compare. rewrite Hk. unfold bool_kind, bool_lt.
  destruct a, b; destruct o; try discriminate; try congruence; cbn; (eexists; split; [reflexivity|]); intuition congruence.
Qed.
Lemma bool_compare_le x o a b : v_kind x = bool_kind a -> o = QLe \/ o = QGe ->
  query_compare x (norm_op (op_text o)) (bool_text b) =
    Ok (match o with QLe => negb a | _ => a end).
Proof.
  intros Hk Ho. unfold query_compare. rewrite Hk. destruct Ho as [-> | ->], a; reflexivity.
Qed.
Lemma holds_bool c x q o a b : wf c -> asks c x q o (bool_text b) -> v_exists x = true -> v_kind x = bool_kind a ->
  is_like o = false -> o <> QLe -> o <> QGe ->
  exists t, q_holds c q t /\ (t = true <-> op_rel bool_lt o a b).
Proof.
  intros Hc Ha He Hk H1 H2 H3. destruct (bool_compare x o a b Hk H1 H2 H3) as (t & Et & Hrel). exists t. split; auto.
  destruct (bool_text_bare b) as (B1 & B2 & B3 & B4 & B5). eapply asks_holds; eauto.
  rewrite (query_matches_eq x o _ (bool_text b)) by auto using query_rhs_bare. exact Et.
Qed.
Lemma holds_bool_le c x q o a b : wf c -> asks c x q o (bool_text b) -> v_exists x = true -> v_kind x = bool_kind a ->
  o = QLe \/ o = QGe -> q_holds c q (match o with QLe => negb a | _ => a end).
Proof.
  intros Hc Ha He Hk Ho. destruct (bool_text_bare b) as (B1 & B2 & B3 & B4 & B5). eapply asks_holds; eauto.
  rewrite (query_matches_eq x o _ (bool_text b)) by auto using query_rhs_bare. apply bool_compare_le; auto.
Qed.
Lemma holds_exists_q c x q : wf c -> asks_exists c x q -> q_holds c q (v_exists x).
Proof. intros Hc (s0 & l & s1 & H0 & Hl & H1 & -> & Hx). apply holds_exists; auto. Qed.

(** Null, arrays and objects never satisfy a comparison; nor does a missing value. *)
Lemma holds_other c x q o r : wf c -> asks c x q o r -> bare r ->
  v_exists x = false \/ In (v_kind x) [KNull; KArray; KObject] -> q_holds c q false.
Proof.
  intros Hc Ha (H1 & H2 & H3 & H4 & H5) Hx. eapply asks_holds; eauto.
  destruct (v_exists x) eqn:Ex.
  - rewrite (query_matches_eq x o _ r) by auto using query_rhs_bare. destruct Hx as [Hx|Hx]; [discriminate|].
    unfold query_compare. cbn [In] in Hx. destruct Hx as [<-|[<-|[<-|[]]]]; reflexivity.
  - unfold query_matches. rewrite query_rhs_bare by auto. cbn [bind]. destruct r as [|a t]; cbn [bind].
    + rewrite Ex. reflexivity.
    + cbn [hd] in H5. replace (a =? cTILDE)%N with false by (change cTILDE with 126%N; lia). cbn [bind]. rewrite Ex. reflexivity.
Qed.

(** The tilde. *)
Lemma tilde_text b : trimmed (126%N :: bool_text b) /\ balanced (126%N :: bool_text b).
Proof.
  assert (H : forall l, Forall plain_byte l -> balanced l).
  { induction 1 as [|c t (H1 & H2 & H3 & H4) _ IH]; constructor; auto. }
  split; [right; destruct b; cbn; lia|].
  apply H. unfold plain_byte, bracket_open, bracket_close. destruct b; repeat constructor; lia.
Qed.
Lemma holds_tilde c x q o a b : wf c -> asks c x q o (126%N :: bool_text b) -> v_bool x = Ok a ->
  is_like o = false -> o <> QLe -> o <> QGe ->
  exists t, q_holds c q t /\ (t = true <-> op_rel bool_lt o a b).
Proof.
  intros Hc Ha Hb H1 H2 H3.
  set (y := if a then mkValue lit_true [] [] INFO_TRUE None else mkValue lit_false [] [] INFO_FALSE None).
  destruct (bool_compare y o a b ltac:(unfold y; destruct a; reflexivity) H1 H2 H3) as (t & Et & Hrel). exists t. split; auto.
  destruct (tilde_text b) as [T1 T2]. eapply asks_holds; eauto; [cbn; lia|].
  unfold query_matches. rewrite query_rhs_bare by (cbn; lia). cbn [bind]. change (126 =? cTILDE)%N with true. cbv match.
  rewrite Hb. cbn [bind]. fold y. replace (v_exists y) with true by (unfold y; destruct a; reflexivity). cbn [negb].
  rewrite <- Et. destruct o; reflexivity.
Qed.

(** Malformed components are read as an empty name at the end of the path. *)
From Verif Require Import P_Base P_Json P_Valid P_ValidSpec P_Str P_Glob P_Scan P_Each P_Doc P_Path P_LGet P_Parts P_Ext P_Value P_Num P_Key P_Find
  P_GetDoc P_GetArr P_Pipe P_Total P_Eval P_Tail M_Util M_Num M_Scan M_Value M_Path M_Get S_Json S_Get S_Path S_Query S_Follow S_Panic S_Eval S_Bad.

(* ---------- the list-level query component ---------- *)

Definition query_end (comp : bytes) : bool :=
  match rev comp with
  | z :: u => if (z =? 35)%N then match u with y :: _ => (y =? 41)%N | [] => false end else (z =? 41)%N
  | [] => false
  end.
Definition lqpath (t r : bytes) (sep : N) (ex : bytes) : path :=
  let comp := upto (35%N :: 40%N :: t) r in
  if query_end comp then mkPath comp false false sep 0 ex else path_default.
Definition lquery (t : bytes) : path :=
  match (match sq false 0 t with Some r => r | None => [] end) with
  | [] => lqpath t [] 0 []
  | x :: r => if (x =? 35)%N then
                match r with
                | [] => lqpath t [] 0 []
                | y :: u => if is_sep y then lqpath t (y :: u) y u else path_default
                end
              else if is_sep x then lqpath t (x :: r) x r else path_default
  end.

Lemma idx_rev comp z u : rev comp = z :: u -> idx comp (length comp - 1) = Ok z.
Proof.
  intros E. assert (Ec : comp = rev u ++ [z]) by (rewrite <- (rev_involutive comp), E; reflexivity). rewrite Ec. apply idx_last.
Qed.
Lemma idx_rev2 comp z y u : rev comp = z :: y :: u -> idx comp (length comp - 2) = Ok y.
Proof.
  intros E. assert (Ec : comp = rev u ++ [y; z]) by (rewrite <- (rev_involutive comp), E; cbn [rev]; rewrite <- app_assoc; reflexivity).
  rewrite Ec, app_length. cbn [length]. unfold idx. replace (length (rev u) + 2 - 2) with (length (rev u)) by lia.
  rewrite nth_error_app2, Nat.sub_diag by lia. reflexivity.
Qed.

Lemma pnext_lquery t : pnext (35%N :: 40%N :: t) = lquery t.
Proof.
  unfold pnext, path_next. set (extra := 35%N :: 40%N :: t).
  change (0 <? length extra) with true. change (idx extra 0) with (@Ok N 35%N). cbn [bind].
  change ((35 =? cAT)%N) with false. change ((35 =? cHASH)%N) with true. cbv match.
  change (length extra =? 1) with false. change (idx extra 1) with (@Ok N 40%N). cbn [bind]. change (is_sep 40) with false. cbv match.
  unfold path_next_query. change (idx extra 1) with (@Ok N 40%N). cbn [bind]. change (negb (40 =? cLPAR)%N) with false. cbv match.
  pose proof (scan_squash_spec extra 40%N t (suf_cons _ _)) as H.
  replace (pos extra (40%N :: t)) with 1 in H by (unfold pos, extra; cbn [length]; lia).
  rewrite H. clear H. unfold lquery.
  assert (Hr : exists r, r = match sq false 0 t with Some r => r | None => [] end /\ suf r t /\
    (match sq false 0 t with Some r => (upto (40%N :: t) r, pos extra r) | None => ([], length extra) end)
      = (match sq false 0 t with Some r => upto (40%N :: t) r | None => [] end, pos extra r)).
  { destruct (sq false 0 t) as [r|] eqn:E.
    - exists r. split; auto. split; auto. apply sq_rest in E. tauto.
    - exists []. split; auto. split; [apply suf_nil | rewrite pos_nil; reflexivity]. }
  destruct Hr as (r & <- & Hr & ->). cbn [bind].
  assert (Hre : suf r extra) by (eapply suf_trans; [exact Hr|]; exists [35%N; 40%N]; reflexivity).
  assert (Hfin : forall r' sep ex, suf r' t -> ((sep = 0%N /\ r' = [] /\ ex = []) \/ (is_sep sep = true /\ r' = sep :: ex)) ->
    (ex <- (if (sep =? 0)%N then slice_from extra (pos extra r') else slice_from extra (pos extra r' + 1)) ;;
     comp <- slice extra 0 (pos extra r') ;;
     l1 <- usub (length comp) 1 ;;
     z <- idx comp l1 ;;
     let p := mkPath comp false false sep 0 ex in
     if (z =? cHASH)%N then
       l2 <- usub (length comp) 2 ;;
       y <- idx comp l2 ;;
       if negb (y =? cRPAR)%N then Ok path_default else Ok p
     else if negb (z =? cRPAR)%N then Ok path_default
     else Ok p) = Ok (lqpath t r' sep ex)).
  { intros r' sep ex Hr' Hs. assert (Hre' : suf r' extra) by (eapply suf_trans; [exact Hr'|]; exists [35%N; 40%N]; reflexivity).
    assert (Hex : (if (sep =? 0)%N then slice_from extra (pos extra r') else slice_from extra (pos extra r' + 1)) = Ok ex).
    { destruct Hs as [(-> & -> & ->)|[Hs ->]].
      - cbn [N.eqb]. rewrite slice_from_pos by apply suf_nil. auto.
      - rewrite (is_sep_nz _ Hs). rewrite (pos_S _ _ _ Hre'). apply slice_from_pos. eapply suf_tail; eauto. }
    rewrite Hex. cbn [bind].
    pose proof (slice_upto extra r' extra Hre' (suf_refl _)) as Hsl. rewrite pos_refl in Hsl. rewrite Hsl. cbn [bind].
    pose proof (upto_suf _ _ Hre') as Eu. unfold lqpath. fold extra. cbv zeta. set (comp := upto extra r') in *.
    assert (Hlen : 2 <= length comp).
    { assert (length extra = length comp + length r') by (rewrite Eu at 1; apply app_length).
      apply suf_length in Hr'. unfold extra in H. simpl in H. lia. }
    rewrite usub_ok by lia. cbn [bind]. unfold query_end.
    destruct (rev comp) as [|z [|y u]] eqn:Erev.
    1, 2: exfalso; apply (f_equal (@length N)) in Erev; rewrite rev_length in Erev; cbn [length] in Erev; lia.
    rewrite (idx_rev _ _ _ Erev). cbn [bind]. change cHASH with 35%N. destruct (z =? 35)%N.
    - rewrite usub_ok by lia. cbn [bind]. rewrite (idx_rev2 _ _ _ _ Erev). cbn [bind]. change cRPAR with 41%N. destruct (y =? 41)%N; reflexivity.
    - change cRPAR with 41%N. destruct (z =? 41)%N; reflexivity. }
  cbv zeta in Hfin. change cHASH with 35%N in *.
  destruct r as [|x r'].
  - rewrite pos_ltb_nil. cbn [bind]. rewrite (Hfin [] 0%N []); auto using suf_nil.
  - rewrite (pos_ltb _ _ _ Hre), (idx_pos _ _ _ Hre). cbn [bind].
    pose proof (suf_tail _ _ _ Hre) as Hr'. pose proof (suf_tail _ _ _ Hr) as Hr't.
    destruct (x =? 35)%N.
    + rewrite (pos_S _ _ _ Hre). destruct r' as [|y r''].
      * rewrite pos_ltb_nil. cbn [bind]. rewrite (Hfin [] 0%N []); auto using suf_nil.
      * rewrite (pos_ltb _ _ _ Hr'), (idx_pos _ _ _ Hr'). cbn [bind].
        destruct (is_sep y) eqn:Ey; cbn [bind]; auto. rewrite (Hfin (y :: r'') y r''); auto.
    + destruct (is_sep x) eqn:Ex; cbn [bind]; auto. rewrite (Hfin (x :: r') x r'); auto.
Qed.

(* ---------- what the scan for the closing bracket finds ---------- *)

Lemma balanced_chars a t : balanced t -> Forall (fun c => ~ bracket_open c /\ ~ bracket_close c /\ c <> 34%N /\ c <> 92%N) a -> balanced (a ++ t).
Proof. intros Ht. induction 1 as [|c a (H1 & H2 & H3 & H4) _ IH]; auto. cbn [app]. apply bal_char; auto. Qed.

Lemma sq_true_inv : forall n l d r, length l < n -> sq true d l = Some r ->
  exists b l', quotable b /\ l = b ++ 34%N :: l' /\ sq false d l' = Some r.
Proof.
  induction n as [|n IH]; intros l d r Hn E; [lia|]. destruct l as [|c t]; [discriminate|]. cbn [sq length] in *.
  destruct (N.eqb_spec c 92) as [->|H1].
  - destruct t as [|x t']; [discriminate|]. cbn [length] in Hn. destruct (IH t' d r ltac:(lia) E) as (b & l' & Hb & -> & E').
    exists (92%N :: x :: b), l'. split; [apply qt_esc; auto|]. auto.
  - destruct (N.eqb_spec c 34) as [->|H2].
    + exists [], t. split; [constructor|]. auto.
    + destruct (IH t d r ltac:(lia) E) as (b & l' & Hb & -> & E'). exists (c :: b), l'. split; [apply qt_char; auto|]. auto.
Qed.

(** [d] more closing brackets. *)
Fixpoint closes (d : nat) (l r : bytes) : Prop :=
  exists q c l', balanced q /\ bracket_close c /\ l = q ++ c :: l' /\ match d with 0 => l' = r | S d' => closes d' l' r end.
Lemma closes_pre d l r a : (forall t, balanced t -> balanced (a ++ t)) -> closes d l r -> closes d (a ++ l) r.
Proof.
  intros H. destruct d; cbn [closes]; intros (q & c & l' & Hq & Hc & -> & E); exists (a ++ q), c, l'; (split; [auto|]); split; auto;
    (split; [rewrite app_assoc; reflexivity | exact E]).
Qed.

Lemma sq_closes : forall n l d r, length l < n -> sq false d l = Some r -> closes d l r.
Proof.
  induction n as [|n IH]; intros l d r Hn E; [lia|]. destruct l as [|c t]; [discriminate|]. cbn [sq length] in *.
  destruct (N.eqb_spec c 92) as [->|H1].
  { destruct t as [|x t']; [discriminate|]. cbn [length] in Hn. apply (closes_pre d t' r [92%N; x]); [intros u Hu; apply bal_esc; auto | apply IH; auto; lia]. }
  destruct (N.eqb_spec c 34) as [->|H2].
  { cbn [negb] in E. destruct (sq_true_inv (S (length t)) t d r ltac:(lia) E) as (b & l' & Hb & -> & E').
    replace (34%N :: b ++ 34%N :: l') with (quoted b ++ l') by (apply quoted_app_cons).
    apply closes_pre; [intros u Hu; apply bal_string; auto|]. apply IH; auto. rewrite app_length in Hn. cbn [length] in Hn. lia. }
  destruct (is_open c) eqn:Ho.
  { specialize (IH t (S d) r ltac:(lia) E). cbn [closes] in IH. destruct IH as (q & c' & l' & Hq & Hc' & -> & Hl).
    replace (c :: q ++ c' :: l') with ((c :: q ++ [c']) ++ l') by (cbn [app]; rewrite <- app_assoc; reflexivity).
    apply closes_pre; auto. intros u Hu. cbn [app]. rewrite <- app_assoc. cbn [app]. apply bal_group; auto.
    unfold is_open in Ho. unfold bracket_open. lia. }
  assert (Hno : ~ bracket_open c) by (unfold is_open in Ho; unfold bracket_open; lia).
  destruct (is_close c) eqn:Hcl.
  { assert (Hc : bracket_close c) by (unfold is_close in Hcl; unfold bracket_close; lia).
    destruct d as [|d]; cbn [closes]; exists [], c, t; (split; [constructor|]); split; auto; (split; [reflexivity|]).
    - congruence.
    - apply IH; auto; lia. }
  assert (Hnc : ~ bracket_close c) by (unfold is_close in Hcl; unfold bracket_close; lia).
  apply (closes_pre d t r [c]); [intros u Hu; apply bal_char; auto | apply IH; auto; lia].
Qed.
Lemma sq_some t r : sq false 0 t = Some r -> exists q c, balanced q /\ bracket_close c /\ t = q ++ c :: r.
Proof.
  intros E. destruct (sq_closes (S (length t)) t 0 r ltac:(lia) E) as (q & c & l' & Hq & Hc & Et & ->). eauto.
Qed.
Lemma sq_close q c r : balanced q -> bracket_close c -> sq false 0 (q ++ c :: r) = Some r.
Proof. intros Hq Hc. rewrite sq_balanced by auto. cbn [sq]. destruct Hc as [->|[->| ->]]; reflexivity. Qed.
Lemma sq_none t : sq false 0 t = None <-> unclosed t.
Proof.
  split.
  - intros E q c r Hq Hc ->. rewrite sq_close in E; auto. discriminate.
  - intros H. destruct (sq false 0 t) as [r|] eqn:E; auto. apply sq_some in E as (q & c & Hq & Hc & ->). exfalso. exact (H q c r Hq Hc eq_refl).
Qed.

(* ---------- malformed components ---------- *)

Lemma is_sep_iff c : is_sep c = true <-> separator c.
Proof. unfold is_sep, separator. change cDOT with 46%N. change cPIPE with 124%N. lia. Qed.
Lemma query_end_iff t : query_end t = true <-> ends_query t.
Proof.
  unfold query_end, ends_query. split.
  - destruct (rev t) as [|z u] eqn:E; [discriminate|]. apply (f_equal (@rev N)) in E. rewrite rev_involutive in E. cbn [rev] in E.
    destruct (N.eqb_spec z 35) as [->|].
    + destruct u as [|y u]; [discriminate|]. intros H. apply N.eqb_eq in H. subst y. exists (rev u). right. rewrite E. cbn [rev]. rewrite <- app_assoc. reflexivity.
    + intros H. apply N.eqb_eq in H. subst z. exists (rev u). left. exact E.
  - intros (a & [->| ->]); rewrite rev_app_distr; reflexivity.
Qed.
Lemma ends_hash_paren t : ends_query (35%N :: 40%N :: t) -> ends_query t.
Proof.
  intros (a & [E|E]).
  - destruct a as [|x [|y a]]; try discriminate. injection E as _ _ ->. exists a. auto.
  - destruct a as [|x [|y a]]; try discriminate. injection E as _ _ ->. exists a. auto.
Qed.
Lemma upto_nil l : upto l [] = l.
Proof. rewrite <- (app_nil_r l) at 1. apply upto_app. Qed.

Theorem pnext_malformed b : malformed b -> pnext b = path_default.
Proof.
  intros [c t H1 H2|q all c t Hq Hs Ha|q c t Hq Hc|t Hu He].
  - unfold pnext, path_next. change (0 <? length (35%N :: c :: t)) with true. change (idx (35%N :: c :: t) 0) with (@Ok N 35%N). cbn [bind].
    change ((35 =? cAT)%N) with false. change ((35 =? cHASH)%N) with true. cbv match.
    change (length (35%N :: c :: t) =? 1) with false. change (idx (35%N :: c :: t) 1) with (@Ok N c). cbn [bind].
    replace (is_sep c) with false by (symmetry; apply not_true_is_false; rewrite is_sep_iff; auto). cbv match.
    unfold path_next_query. change (idx (35%N :: c :: t) 1) with (@Ok N c). cbn [bind]. change cLPAR with 40%N.
    replace (c =? 40)%N with false by lia. reflexivity.
  - assert (Ex : qcomp q all ++ c :: t = 35%N :: 40%N :: q ++ 41%N :: (if all then [35%N] else []) ++ c :: t).
    { unfold qcomp. cbn [app]. rewrite <- app_assoc. reflexivity. }
    rewrite Ex, pnext_lquery. unfold lquery. rewrite sq_close by (auto; left; reflexivity).
    assert (E : is_sep c = false) by (apply not_true_is_false; rewrite is_sep_iff; auto).
    destruct all; cbn [app].
    + change (35 =? 35)%N with true. cbv match. rewrite E. reflexivity.
    + replace (c =? 35)%N with false by (specialize (Ha eq_refl); lia). rewrite E. reflexivity.
  - rewrite pnext_lquery. unfold lquery. rewrite sq_close by (auto; unfold bracket_close; lia).
    assert (Hend : forall h r sep ex, (h = [] \/ h = [35%N]) -> q ++ c :: t = q ++ c :: h ++ r -> lqpath (q ++ c :: t) r sep ex = path_default).
    { intros h r sep ex Hh E. unfold lqpath. cbv zeta. rewrite E.
      replace (35%N :: 40%N :: q ++ c :: h ++ r) with ((35%N :: 40%N :: q ++ c :: h) ++ r) by (cbn [app]; rewrite <- app_assoc; reflexivity).
      rewrite upto_app. replace (query_end (35%N :: 40%N :: q ++ c :: h)) with false; auto.
      symmetry. unfold query_end. cbn [rev]. rewrite rev_app_distr. destruct Hh as [-> | ->]; cbn [rev app].
      - replace (c =? 35)%N with false by lia. lia.
      - change (35 =? 35)%N with true. cbv match. lia. }
    destruct t as [|x r]; [apply (Hend []); auto|].
    destruct (N.eqb_spec x 35) as [->|].
    + destruct r as [|y u]; [apply (Hend [35%N]); auto|]. destruct (is_sep y); auto. apply (Hend [35%N]); auto.
    + destruct (is_sep x); auto. apply (Hend []); auto.
  - rewrite pnext_lquery. unfold lquery. rewrite (proj2 (sq_none t) Hu). unfold lqpath. cbv zeta. rewrite upto_nil.
    destruct (query_end (35%N :: 40%N :: t)) eqn:E; auto. apply query_end_iff, ends_hash_paren in E. contradiction.
Qed.

(** Everything that starts with a hash. *)
Theorem hash_cases t : malformed (35%N :: t) \/
  (exists k r, (k = [35%N] \/ exists q all, balanced q /\ k = qcomp q all) /\ rest_ok r /\ 35%N :: t = k ++ r) \/
  (exists u, t = 40%N :: u /\ unclosed u /\ ends_query u).
Proof.
  destruct t as [|c t].
  { right. left. exists [35%N], []. split; auto. split; [left; reflexivity|]. reflexivity. }
  assert (Hd : separator c \/ ~ separator c) by (unfold separator; lia). destruct Hd as [Hd|Hd].
  { right. left. exists [35%N], (c :: t). split; auto. split; [right; eauto | reflexivity]. }
  destruct (N.eq_dec c 40) as [->|Hc]; [|left; apply mf_name; auto].
  destruct (sq false 0 t) as [r|] eqn:E.
  2:{ apply sq_none in E. destruct (query_end t) eqn:Eq; [right; right; apply query_end_iff in Eq; eauto|].
      left. apply mf_open; auto. rewrite <- query_end_iff. congruence. }
  apply sq_some in E as (q & c & Hq & Hcl & ->). destruct Hcl as [->|Hcl]; [|left; apply mf_bracket; auto].
  assert (Hr : forall r', rest_ok r' \/ exists x u, r' = x :: u /\ ~ separator x).
  { intros [|x u]; [left; left; reflexivity|]. assert (D : separator x \/ ~ separator x) by (unfold separator; lia). unfold rest_ok. destruct D; eauto 8. }
  assert (Eq : forall all r', qcomp q all ++ r' = 35%N :: 40%N :: q ++ 41%N :: (if all then [35%N] else []) ++ r').
  { intros all r'. unfold qcomp. cbn [app]. rewrite <- app_assoc. reflexivity. }
  destruct (Hr r) as [Hok|(x & u & -> & Hx)].
  { right. left. exists (qcomp q false), r. split; [right; eauto|]. split; auto. rewrite Eq. reflexivity. }
  destruct (N.eq_dec x 35) as [->|Hn].
  - destruct (Hr u) as [Hok|(y & v & -> & Hy)].
    + right. left. exists (qcomp q true), u. split; [right; eauto|]. split; auto. rewrite Eq. reflexivity.
    + left. replace (35%N :: 40%N :: q ++ 41%N :: 35%N :: y :: v) with (qcomp q true ++ y :: v) by (rewrite Eq; reflexivity).
      apply mf_junk; auto. discriminate.
  - left. replace (35%N :: 40%N :: q ++ 41%N :: x :: u) with (qcomp q false ++ x :: u) by (rewrite Eq; reflexivity). apply mf_junk; auto.
Qed.

Theorem get_malformed b ks json : malformed b -> Forall any_comp ks -> get json (dotted (ks ++ [b])) = get json (dotted (ks ++ [[]])).
Proof.
  intros Hb Hks. apply get_tail; auto; [rewrite (pnext_malformed b Hb); reflexivity | | discriminate].
  destruct Hb; cbn; discriminate.
Qed.

(* ---------- the result on documents ---------- *)

Section None.
Context (mt : text -> text -> bool) (ix : text -> option nat) (hd : text -> cst -> bool).
Lemma scan_none hit fin below : (fin = false -> forall c, all_named c -> forall r, below c = Some r -> r = None) ->
  (fin = true -> forall m, hit m = true -> m = []) ->
  forall c, all_named c -> forall r, scan hit fin below c = Found r -> r = None.
Proof using.
  intros Hb Hf c. unfold scan. induction c as [| | |n|b|w es IH|w ms IH] using cst_ind'; intros Hc r E; try discriminate.
  - rewrite scan_arr in E. cbn [all_named] in Hc. induction es as [|e es IHes]; [discriminate|]. cbn [selems] in E.
    inversion IH as [|? ? I1 I2]; subst. destruct e as [wb v wa]. cbn [i_val] in *. destruct Hc as [Hv Hc].
    destruct (scan_with hit fin below Some None v) as [r'| |] eqn:Ev; try discriminate.
    + injection E as ->. eauto.
    + auto.
  - rewrite scan_obj in E. cbn [all_named] in Hc. induction ms as [|m ms IHms]; [discriminate|]. cbn [smembers] in E.
    inversion IH as [|? ? I1 I2]; subst. destruct Hc as (Hn & Hv & Hc). destruct m as [wa k wb wc v wd]. cbn [m_val] in *.
    destruct (hit _) eqn:Eh; [|auto]. destruct fin; [exfalso; apply Hn; exact (Hf eq_refl _ Eh)|].
    assert (E' : is_container v = true -> match below v with Some r => Found r | None =>
       match scan_with hit false below Some None v with Go => smembers hit false below Some None ms | e => e end end = Found r)
      by (intros Hv'; destruct v; try discriminate; exact E).
    destruct (is_container v) eqn:Ec; [|destruct v; try discriminate; congruence]. specialize (E' eq_refl).
    destruct (below v) as [r'|] eqn:Eb; [injection E' as ->; eauto|].
    destruct (scan_with hit false below Some None v) as [r'| |] eqn:Ev; try discriminate; [injection E' as ->; eauto | auto].
Qed.
Lemma named_elem w es n e : all_named (CArr w es) -> nth_error es n = Some e -> all_named (i_val e).
Proof using.
  cbn [all_named]. revert n. induction es as [|[a v b] es IH]; intros [|n]; cbn [nth_error]; try discriminate; intros [H1 H2].
  - intros [= <-]. exact H1.
  - apply IH, H2.
Qed.
Lemma named_find w es f e : all_named (CArr w es) -> find f (map i_val es) = Some e -> all_named e.
Proof using.
  cbn [all_named]. induction es as [|[a v b] es IH]; cbn [map find i_val]; [discriminate|]. intros [H1 H2].
  destruct (f v); [intros [= <-]; exact H1 | apply IH, H2].
Qed.
Lemma eval_none ss : Forall single ss -> (forall n, mt [] n = true -> n = []) -> ix [] = None ->
  forall c, all_named c -> forall r, eval mt ix hd (ss ++ [Name []]) c = Some r -> r = None.
Proof using.
  intros Hs Hm Hi. induction Hs as [|s ss Hs _ IH]; intros c Hc r E.
  - cbn [app eval] in E. destruct c as [| | |n|b|w es|w ms]; try discriminate.
    + rewrite Hi in E. discriminate.
    + destruct (scan _ _ _ _) as [r'| |] eqn:Es; try discriminate. injection E as <-.
      refine (scan_none _ true (fun c => Some (Some c)) _ _ (CObj w ms) Hc r' _).
      * discriminate.
      * intros _ m. exact (Hm m).
      * exact Es.
  - assert (IHf : forall c, all_named c -> flat (eval mt ix hd (ss ++ [Name []]) c) = None).
    { intros c' Hc'. destruct (eval mt ix hd (ss ++ [Name []]) c') as [x|] eqn:Ex; auto. exact (IH c' Hc' x Ex). }
    cbn [app eval] in E. destruct c as [| | |n|b|w es|w ms]; try discriminate.
    + destruct s as [k| |q [|]]; try contradiction; try discriminate.
      * destruct (ix k) as [n|]; [|discriminate]. destruct (nth_error es n) as [e|] eqn:En; [|discriminate].
        assert (r = flat (eval mt ix hd (ss ++ [Name []]) (i_val e))) as -> by congruence. apply IHf, (named_elem w es n e); auto.
      * destruct (find (hd q) (map i_val es)) as [e|] eqn:En; [|discriminate].
        assert (r = flat (eval mt ix hd (ss ++ [Name []]) e)) as -> by congruence. apply IHf, (named_find w es (hd q) e); auto.
    + destruct (ss ++ [Name []]) as [|s2 ss2] eqn:Ess; [destruct ss; discriminate|].
      destruct (scan _ _ _ _) as [r'| |] eqn:Es; try discriminate. injection E as <-.
      refine (scan_none _ false _ _ _ (CObj w ms) Hc r' Es); [intros _; exact IH | discriminate].
Qed.
End None.

Lemma glob_empty n : glob byte_char (bare_qm []) n -> n = [].
Proof. intros H. inversion H. reflexivity. Qed.
Lemma steps_texts ss : Forall step_ok ss -> Forall any_comp (map step_text ss).
Proof. induction 1; constructor; auto. apply step_any; auto. Qed.

Theorem get_malformed_doc mt ix hd ss b c w1 w2 : malformed b -> meaning mt ix hd (ss ++ [Name []]) -> steps_ok (ss ++ [Name []]) ->
  ws w1 -> wf c -> answers (w1 ++ render c ++ w2) (dotted (map step_text ss ++ [b])) (result mt ix hd (ss ++ [Name []]) c).
Proof.
  intros Hb Hm Hok H1 Hc. pose proof (get_result mt ix hd (ss ++ [Name []]) c w1 w2 Hm Hok ltac:(destruct ss; discriminate) H1 Hc) as H.
  rewrite map_app in H. cbn [map step_text] in H. unfold answers, gets, gets_none in *.
  rewrite (get_malformed b (map step_text ss)); auto. destruct Hok as [Hok _]. apply Forall_app in Hok as [Hok _]. apply steps_texts; auto.
Qed.

Lemma dotted_prefix ks b : exists r, dotted (ks ++ [b]) = dotted (ks ++ [[]]) ++ r.
Proof.
  exists b. induction ks as [|k ks IH]; [reflexivity|]. cbn [app]. rewrite !dotted_cons by (destruct ks; discriminate).
  rewrite IH, <- app_assoc. reflexivity.
Qed.
Theorem malformed_nothing ss b c w1 w2 : malformed b -> Forall single ss -> steps_ok (ss ++ [Name []]) ->
  ~ tilde_after_pretty (dotted (map step_text ss ++ [b])) -> ws w1 -> wf c -> all_named c ->
  gets_none (w1 ++ render c ++ w2) (dotted (map step_text ss ++ [b])).
Proof.
  intros Hb Hs Hok Hp H1 Hc Hn.
  assert (Hm : meaning match0 index0 holds0 (ss ++ [Name []])).
  { apply meaning0; [apply Hok|]. destruct (dotted_prefix (map step_text ss) b) as (r & E). eapply calm_infix; [|exact Hp].
    rewrite E, map_app. exists [], r. reflexivity. }
  pose proof (get_malformed_doc _ _ _ ss b c w1 w2 Hb Hm Hok H1 Hc) as H.
  assert (Hr : result match0 index0 holds0 (ss ++ [Name []]) c = None).
  { unfold result. destruct (eval match0 index0 holds0 (ss ++ [Name []]) c) as [r|] eqn:E; auto.
    refine (eval_none match0 index0 holds0 ss Hs _ eq_refl c Hn r E).
    intros n Hn'. apply glob_empty. apply (mn_match _ _ _ _ Hm); auto. apply in_or_app. right. left. reflexivity. }
  rewrite Hr in H. exact H.
Qed.

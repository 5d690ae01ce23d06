(** Array components: count, sub-paths of all elements, queries. *)
From Verif Require Import P_Base P_Json P_Valid P_Str P_Glob P_Scan P_Each P_Doc P_Path P_LGet P_Parts P_Ext P_Value P_Num
  P_Key P_Find P_GetDoc M_Util M_Num M_Scan M_Value M_Path M_Get S_Json S_Str S_Get S_Path S_Query.

(** [get] for a first component of any kind handled here. *)
Lemma any_split k s rest : any_comp k -> k <> [] -> split_lines (k ++ s :: rest) = (false, k ++ s :: rest).
Proof.
  intros Hk Hn. apply split_lines_simple. split; auto. destruct Hk as [[H _]|[->|(q & all & _ & ->)]]; try (cbn; discriminate).
  destruct k as [|c k]; [congruence|]. cbn [hd]. inversion H as [|c' t' (H1 & _) Ht|]; subst; [auto | discriminate].
Qed.
Lemma any_split_end k : any_comp k -> split_lines k = (false, k).
Proof.
  intros Hk. destruct Hk as [[H _]|[->|(q & all & _ & ->)]]; try reflexivity. apply split_lines_one; auto.
Qed.
Lemma get_any_end json k : any_comp k ->
  get json k = ('(res, p) <- lstart get json (cpath k 0 []) ;; if negb (p_more p) then Ok res else v_get res (p_extra p)).
Proof.
  intros Hk. rewrite get_eq, get_body_spec, any_split_end by auto. cbv zeta. unfold lget_first.
  rewrite pnext_any_end by auto. destruct (any_not_mod k 0 [] Hk) as [-> ->]. reflexivity.
Qed.
Lemma get_any_sep json k s rest : any_comp k -> k <> [] -> is_sep s = true ->
  get json (k ++ s :: rest) =
    ('(res, p) <- lstart get json (cpath k s rest) ;; if negb (p_more p) then Ok res else v_get res (p_extra p)).
Proof.
  intros Hk Hn Hs. rewrite get_eq, get_body_spec, any_split by auto. cbv zeta. unfold lget_first.
  rewrite pnext_any_sep by auto. destruct (any_not_mod k s rest Hk) as [-> ->]. reflexivity.
Qed.

(* ---------- count ---------- *)

Lemma dec_loop_spec : forall fuel n acc, n < fuel ->
  exists ds, dec_of_nat_loop fuel n acc = ds ++ acc /\ digits1 ds /\ digits_val ds = Z.of_nat n /\ int_part ds.
Proof.
  induction fuel as [|f IH]; intros n acc Hn; [lia|]. cbn [dec_of_nat_loop].
  pose proof (Nat.div_mod n 10 ltac:(lia)) as Hdm. pose proof (Nat.mod_upper_bound n 10 ltac:(lia)) as Hm.
  set (d := (c0 + N.of_nat (n mod 10))%N).
  assert (Hd : digit d) by (unfold d, digit; change c0 with 48%N; lia).
  assert (Hv : (Z.of_N d - 48 = Z.of_nat (n mod 10))%Z) by (unfold d; change c0 with 48%N; lia).
  destruct (Nat.eqb_spec (n / 10) 0) as [E|E].
  - exists [d]. split; [reflexivity|]. split; [split; [discriminate | auto]|]. split.
    + unfold digits_val. cbn [fold_left]. lia.
    + destruct (N.eq_dec d 48) as [->|Hd0]; constructor; auto. unfold digit in Hd. lia.
  - destruct (IH (n / 10) (d :: acc)) as (ds & E' & [Hn1 Hds] & Hval & Hi).
    { apply Nat.div_lt_upper_bound; lia. }
    exists (ds ++ [d]). rewrite E', <- app_assoc. split; [reflexivity|]. split; [split|].
    + destruct ds; discriminate.
    + apply Forall_app. auto.
    + split.
      * unfold digits_val in *. rewrite fold_digits_app, Hval. cbn [fold_left]. lia.
      * inversion Hi as [|d' ds' Hd' Hds']; subst.
        -- exfalso. change (digits_val [48%N]) with 0%Z in Hval. lia.
        -- cbn [app]. constructor; auto. apply Forall_app. auto.
Qed.
Lemma dec_of_nat_spec n : int_literal (dec_of_nat n) (Z.of_nat n) /\ number (dec_of_nat n).
Proof.
  unfold dec_of_nat. destruct (dec_loop_spec (S n) n [] ltac:(lia)) as (ds & -> & H1 & H2 & H3).
  rewrite app_nil_r. split; [rewrite <- H2; constructor; auto|].
  rewrite <- (app_nil_r ds). apply (number_intro [] ds [] []); auto; constructor.
Qed.

Lemma elems_length json w es r : wf (CArr w es) -> length (elems json false (render (CArr w es) ++ r)) = length es.
Proof. intros H. symmetry. eapply F2_length. apply elems_tval; auto. Qed.

Lemma get_count w1 w es w2 : ws w1 -> wf (CArr w es) ->
  exists v, get (w1 ++ render (CArr w es) ++ w2) [35%N] = Ok v /\ shows v (CNum (v_json v)) /\
    int_literal (v_json v) (Z.of_nat (length es)) /\ number (v_json v).
Proof.
  intros H1 H2. fold (doc w1 (CArr w es) w2).
  rewrite (get_any_end _ [35%N]) by (right; left; reflexivity). rewrite lstart_arr by auto.
  unfold larr. cbn [cpath p_comp N.eqb Pos.eqb p_sep bind p_more negb]. rewrite elems_length by auto.
  change (p_more (cpath [35%N] 0 [])) with false. cbn [negb].
  destruct (dec_of_nat_spec (length es)) as [Hl Hn]. eexists. split; [reflexivity|].
  assert (Hj : v_json (mkowned (dec_of_nat (length es)) INFO_NUMBER None) = dec_of_nat (length es)).
  { unfold v_json. cbn [mkowned v_owned v_slice]. destruct (dec_of_nat (length es)); reflexivity. }
  rewrite Hj. split; auto. destruct (number_head _ Hn) as (h & t & E & _). split.
  - unfold v_exists. rewrite Hj, E. reflexivity.
  - exact Hj.
  - reflexivity.
  - unfold v_str. change (v_kind (mkowned (dec_of_nat (length es)) INFO_NUMBER None)) with KNumber. cbv match. rewrite Hj. reflexivity.
Qed.

(* ---------- lists of results ---------- *)

(** What [push_elem] accumulates. *)
Lemma push_list xs : forall out n, exists n',
  fold_left push_elem xs (out, n) =
    (out ++ match map v_json (filter v_exists xs) with
            | [] => []
            | x :: t => if 0 <? n then 44%N :: commas (x :: t) else commas (x :: t)
            end, n').
Proof.
  induction xs as [|x xs IH]; intros out n; cbn [fold_left filter map].
  - exists n. rewrite app_nil_r. reflexivity.
  - unfold push_elem at 2. destruct (v_exists x) eqn:Ex; [|apply IH].
    destruct (IH ((if 0 <? n then out ++ [44%N] else out) ++ v_json x) (n + 1)) as (n' & E).
    exists n'. change cCOMMA with 44%N. rewrite E. f_equal. cbn [map].
    replace (0 <? n + 1) with true by lia.
    destruct (map v_json (filter v_exists xs)) as [|y l].
    + rewrite app_nil_r. cbn [commas]. destruct (0 <? n); rewrite <- ?app_assoc; reflexivity.
    + cbn [commas]. destruct (0 <? n); rewrite <- !app_assoc; reflexivity.
Qed.
Lemma push_list0 xs : fst (fold_left push_elem xs ([91%N], 0)) ++ [93%N] =
  91%N :: commas (map v_json (filter v_exists xs)) ++ [93%N].
Proof.
  destruct (push_list xs [91%N] 0) as (n' & ->). cbn [fst Nat.ltb Nat.leb app].
  destruct (map v_json (filter v_exists xs)); reflexivity.
Qed.

Lemma push_all_some f (xs ys : list value) st : Forall2 (fun x y => f x = Ok (Some y)) xs ys ->
  push_all f xs st = Ok (fold_left push_elem ys st).
Proof.
  intros H. revert st. induction H as [|x y xs ys Hxy H IH]; intros st; auto. cbn [push_all fold_left].
  rewrite Hxy. cbn [bind]. apply IH.
Qed.
Lemma push_all_opt f (xs : list value) ys st : Forall2 (fun x y => f x = Ok y) xs ys ->
  push_all f xs st = Ok (fold_left push_elem (flat_map (fun o => match o with Some y => [y] | None => [] end) ys) st).
Proof.
  intros H. revert st. induction H as [|x y xs ys Hxy H IH]; intros st; auto. cbn [push_all].
  rewrite Hxy. cbn [bind flat_map]. rewrite IH. destruct y; reflexivity.
Qed.

Lemma render_ne c : wf c -> render c <> [].
Proof. intros H. destruct (render_head c H) as (h & t & -> & _). discriminate. Qed.

Lemma v_get_tval g c ix p : wf c -> v_get_with g (tval c ix) p = (r <- g (render c) p ;; Ok (add_index ix r)).
Proof.
  intros H. unfold v_get_with, tval, mkslice. cbn [v_slice v_index]. destruct (render c) eqn:E; [|reflexivity].
  apply render_ne in H. congruence.
Qed.

Lemma F2_map_r {A B C} (P : A -> C -> Prop) (f : B -> C) l1 l2 : Forall2 (fun a b => P a (f b)) l1 l2 -> Forall2 P l1 (map f l2).
Proof. induction 1; cbn [map]; auto. Qed.

(** Results for the elements of a document array. *)
Lemma elems_results {A} (F : value -> R A) (G : cst -> option nat -> A) json w es r : wf (CArr w es) ->
  (forall e ix, In e es -> F (tval (i_val e) ix) = Ok (G (i_val e) ix)) ->
  exists ixs, length ixs = length es /\
    Forall2 (fun x y => F x = Ok y) (elems json false (render (CArr w es) ++ r))
      (map (fun ei => G (i_val (fst ei)) (snd ei)) (combine es ixs)).
Proof.
  intros H HG. pose proof (elems_tval json w es r H) as HF. clear H.
  revert HG. induction HF as [|e x es xs (ix & ->) HF IH]; intros HG.
  - exists []. split; auto. constructor.
  - destruct IH as (ixs & Hl & IH); [intros; apply HG; right; auto|]. exists (ix :: ixs). split; [cbn [length]; auto|].
    cbn [combine map fst snd]. constructor; auto. apply HG. left; auto.
Qed.

Lemma mkowned_list (l : list bytes) : exists v, mkowned (91%N :: commas l ++ [93%N]) INFO_ARRAY None = v /\
  v_exists v = true /\ v_kind v = KArray /\ v_json v = 91%N :: commas l ++ [93%N].
Proof. eexists. split; [reflexivity|]. split; [reflexivity|]. split; reflexivity. Qed.

Lemma get_each w1 w es w2 ks (res : cst -> value) : ws w1 -> wf (CArr w es) -> Forall any_comp ks -> ks <> [] ->
  (forall e, In e es -> get (render (i_val e)) (dotted ks) = Ok (res (i_val e))) ->
  exists v, get (w1 ++ render (CArr w es) ++ w2) (35%N :: 46%N :: dotted ks) = Ok v /\
    v_exists v = true /\ v_kind v = KArray /\
    v_json v = 91%N :: commas (map v_json (filter v_exists (map (fun e => res (i_val e)) es))) ++ [93%N].
Proof.
  intros H1 H2 Hks Hn Hres. fold (doc w1 (CArr w es) w2).
  rewrite (get_any_sep _ [35%N] 46%N (dotted ks)) by (try (right; left; reflexivity); try discriminate; reflexivity).
  rewrite lstart_arr by auto. unfold larr. cbn [cpath p_comp N.eqb Pos.eqb p_sep].
  rewrite next_group_spec. cbn [cpath p_sep N.eqb Pos.eqb p_extra].
  destruct (group_dotted ks Hks Hn) as (r & -> & Hr). cbn [bind].
  destruct (elems_results (fun v => x <- v_get_with get v (dotted ks) ;; Ok (Some x))
    (fun c ix => Some (add_index ix (res c))) (doc w1 (CArr w es) w2) w es w2 H2) as (ixs & Hlen & HF).
  { intros e ix He. rewrite v_get_tval by (apply wf_ival; apply (proj1 (Forall_forall _ _) (wf_items _ _ H2)); auto).
    rewrite Hres by auto. reflexivity. }
  rewrite (push_all_opt _ _ _ _ HF). cbn [bind]. unfold p_more. rewrite Hr. cbn [N.eqb negb].
  rewrite push_list0.
  assert (E : map v_json (filter v_exists (flat_map (fun o => match o with Some y => [y] | None => [] end)
      (map (fun ei : item cst * option nat => Some (add_index (snd ei) (res (i_val (fst ei))))) (combine es ixs)))) =
      map v_json (filter v_exists (map (fun e => res (i_val e)) es))).
  { clear -Hlen. revert ixs Hlen. induction es as [|e es IH]; intros [|ix ixs] Hlen; cbn [length] in Hlen; try lia; auto.
    cbn [combine map flat_map app filter fst snd].
    change (v_exists (add_index ix (res (i_val e)))) with (v_exists (res (i_val e))).
    destruct (v_exists (res (i_val e))); cbn [map]; rewrite IH by lia; reflexivity. }
  rewrite E. destruct (mkowned_list (map v_json (filter v_exists (map (fun e => res (i_val e)) es)))) as (v & -> & Hv). eauto.
Qed.

(* ---------- queries ---------- *)

Definition setix (v : value) (ix : option nat) : value := mkValue (v_slice v) (v_owned v) (v_uesc v) (v_info v) ix.
Lemma query_compare_ix v ix op rpv : query_compare (setix v ix) op rpv = query_compare v op rpv.
Proof. reflexivity. Qed.
Lemma query_matches_ix v ix op rpv : query_matches (setix v ix) op rpv = query_matches v op rpv.
Proof.
  unfold query_matches. change (v_bool (setix v ix)) with (v_bool v).
  destruct (query_rhs rpv) as [[|c t]|e]; cbn [bind]; auto. destruct (c =? cTILDE)%N; auto.
Qed.
Lemma elem_matches_ix g c ix ix' lh op rh : wf c ->
  elem_matches g (tval c ix) lh op rh = elem_matches g (tval c ix') lh op rh.
Proof.
  intros H. unfold elem_matches. destruct lh as [|l lh].
  - exact (query_matches_ix (tval c ix') ix op rh).
  - rewrite !v_get_tval by auto. destruct (g (render c) (l :: lh)) as [r|e]; cbn [bind]; auto.
    change (add_index ix r) with (setix (add_index ix' r) (v_index (add_index ix r))). apply query_matches_ix.
Qed.

(** Whether the element [c] matches the query, as the code computes it. *)
Definition ematch (c : cst) (q : bytes) : R bool :=
  let '(lh, op, rh) := qparts q in elem_matches get (tval c None) lh op rh.

Lemma last_qcomp q : last (40%N :: q ++ [41%N]) 0%N = 41%N.
Proof. change (40%N :: q ++ [41%N]) with ((40%N :: q) ++ [41%N]). apply last_last. Qed.
Lemma last_qcomp_all q : last (40%N :: q ++ [41; 35]%N) 0%N = 35%N.
Proof. change (40%N :: q ++ [41; 35]%N) with ((40%N :: q) ++ [41%N] ++ [35%N]). rewrite app_assoc. apply last_last. Qed.

Lemma larr_one json l q s x :
  larr get json false l (cpath (qcomp q false) s x) =
    ('(lh, op, rh) <- Ok (qparts q) ;;
     v <- find_r (fun v => elem_matches get v lh op rh) (elems json false l) ;;
     Ok (v, cpath (qcomp q false) s x)).
Proof.
  unfold larr. change (p_comp (cpath (qcomp q false) s x)) with (35%N :: 40%N :: q ++ [41%N]). cbv match.
  change (35 =? 35)%N with true. cbv match. rewrite last_qcomp. cbn [N.eqb Pos.eqb].
  rewrite query_parts_one. reflexivity.
Qed.
Lemma larr_all json l q s x :
  larr get json false l (cpath (qcomp q true) s x) =
    ('(lh, op, rh) <- Ok (qparts q) ;;
     '(group, rest) <- next_group (cpath (qcomp q true) s x) ;;
     st <- push_all (fun v =>
             m <- elem_matches get v lh op rh ;;
             if m : bool then
               if (s =? 46)%N then x <- v_get_with get v group ;; Ok (Some x)
               else Ok (Some v)
             else Ok None) (elems json false l) ([91%N], 0) ;;
     Ok (mkowned (fst st ++ [93%N]) INFO_ARRAY None, rest)).
Proof.
  unfold larr. change (p_comp (cpath (qcomp q true) s x)) with (35%N :: 40%N :: q ++ [41; 35]%N). cbv match.
  change (35 =? 35)%N with true. cbv match. rewrite last_qcomp_all. cbn [N.eqb Pos.eqb].
  rewrite query_parts_all. reflexivity.
Qed.

Definition arr1 (c : cst) : cst := CArr [] [Item [] c []].
Lemma wf_arr1 c : wf c -> wf (arr1 c).
Proof. intros H. apply wf_arr; [constructor|]. constructor; [|constructor]. constructor; auto; constructor. Qed.
Lemma render_arr1 c : render (arr1 c) = 91%N :: render c ++ [93%N].
Proof. unfold arr1. cbn [render map commas app render_item]. rewrite app_nil_r. reflexivity. Qed.

(** The one-element array decides the match. *)
Lemma q_holds_ematch c q b : wf c -> balanced q -> (q_holds c q b <-> ematch c q = Ok b).
Proof.
  intros Hc Hq. unfold q_holds. pose proof (wf_arr1 c Hc) as Hw.
  assert (E : get (91%N :: render c ++ [93%N]) (qcomp q false) =
     (m <- ematch c q ;; if m : bool then Ok (tval c (Some 1)) else Ok value_default)).
  { rewrite get_any_end by (right; right; eauto).
    pose proof (lstart_arr get [] [] [Item [] c []] [] (cpath (qcomp q false) 0 []) ltac:(constructor) Hw) as HL.
    unfold doc in HL. cbn [app] in HL. rewrite app_nil_r in HL. fold (arr1 c) in HL. rewrite render_arr1 in HL. rewrite HL.
    rewrite larr_one. unfold ematch. destruct (qparts q) as [[lh op] rh]. cbn [bind].
    pose proof (elems_arr (91%N :: render c ++ [93%N]) [] [Item [] c []] [] Hw) as HE.
    fold (arr1 c) in HE. rewrite app_nil_r, render_arr1 in HE. rewrite HE.
    assert (Hs : map (fval (91%N :: render c ++ [93%N])) (item_sufs [Item [] c []] [93%N]) = [tval c (Some 1)]).
    { cbn [item_sufs map i_val app]. f_equal.
      rewrite fval_render by (auto; right; auto). f_equal. unfold pos. f_equal. cbn [length arr_tail]. lia. }
    rewrite Hs. cbn [find_r].
    rewrite (elem_matches_ix get c (Some 1) None) by auto.
    destruct (elem_matches get (tval c None) lh op rh) as [[]|]; reflexivity. }
  rewrite E. destruct (ematch c q) as [m|e]; cbn [bind].
  - split.
    + intros (v & Hv & Hb). destruct m; injection Hv as <-; rewrite <- Hb; [|reflexivity].
      rewrite tval_exists by auto. reflexivity.
    + intros [= ->]. destruct b; eexists; split; try reflexivity. apply tval_exists; auto.
  - split; [intros (v & Hv & _); discriminate | discriminate].
Qed.

Lemma get_query w1 w es w2 q : ws w1 -> wf (CArr w es) -> balanced q ->
  (forall a e b, es = a ++ e :: b -> Forall (fun x => q_holds (i_val x) q false) a -> q_holds (i_val e) q true ->
     exists v, get (w1 ++ render (CArr w es) ++ w2) (qcomp q false) = Ok v /\ shows v (i_val e)) /\
  (Forall (fun x => q_holds (i_val x) q false) es ->
     exists v, get (w1 ++ render (CArr w es) ++ w2) (qcomp q false) = Ok v /\ v_exists v = false).
Proof.
  intros H1 H2 Hq. fold (doc w1 (CArr w es) w2).
  rewrite get_any_end by (right; right; eauto). rewrite lstart_arr by auto. rewrite larr_one.
  pose proof (elems_tval (doc w1 (CArr w es) w2) w es w2 H2) as HF.
  pose proof (wf_items _ _ H2) as Hwf.
  assert (Hm : forall c ix b, wf c -> q_holds c q b -> (let '(lh, op, rh) := qparts q in elem_matches get (tval c ix) lh op rh) = Ok b).
  { intros c ix b Hc Hb. apply q_holds_ematch in Hb; auto. unfold ematch in Hb. destruct (qparts q) as [[lh op] rh].
    rewrite (elem_matches_ix get c ix None) by auto. exact Hb. }
  destruct (qparts q) as [[lh op] rh]. cbn [bind].
  set (xs := elems _ _ _) in *. clearbody xs. clear H2. split.
  - intros a e b -> Ha He.
    assert (exists ix, find_r (fun v => elem_matches get v lh op rh) xs = Ok (tval (i_val e) ix)) as (ix & ->).
    { clear -HF Hwf Ha He Hm. revert xs HF Hwf. induction Ha as [|x a Hx Ha IH]; intros xs HF Hwf; cbn [app] in *; inversion HF as [|x' y l l' (ix & ->) HF']; subst;
        inversion Hwf as [|x' l2 Hx1 Hx2]; subst; cbn [find_r].
      - rewrite (Hm _ _ _ (wf_ival _ Hx1) He). cbn [bind]. eauto.
      - rewrite (Hm _ _ _ (wf_ival _ Hx1) Hx). cbn [bind]. apply IH; auto. }
    cbn [bind]. change (p_more (cpath (qcomp q false) 0 [])) with false. cbn [negb].
    eexists. split; [reflexivity|]. apply tval_shows. apply wf_ival. eapply (proj1 (Forall_forall _ _) Hwf), in_elt.
  - intros Ha.
    assert (find_r (fun v => elem_matches get v lh op rh) xs = Ok value_default) as ->.
    { clear -HF Hwf Ha Hm. revert xs HF Hwf. induction Ha as [|x a Hx Ha IH]; intros xs HF Hwf; inversion HF as [|x' y l l' (ix & ->) HF']; subst;
        inversion Hwf as [|x' l2 Hx1 Hx2]; subst; cbn [find_r]; auto.
      rewrite (Hm _ _ _ (wf_ival _ Hx1) Hx). cbn [bind]. apply IH; auto. }
    eexists. split; reflexivity.
Qed.

Lemma get_query_all w1 w es w2 q (sel : cst -> bool) : ws w1 -> wf (CArr w es) -> balanced q ->
  (forall e, In e es -> q_holds (i_val e) q (sel (i_val e))) ->
  exists v, get (w1 ++ render (CArr w es) ++ w2) (qcomp q true) = Ok v /\ v_exists v = true /\ v_kind v = KArray /\
    v_json v = 91%N :: commas (map (fun e => render (i_val e)) (filter (fun e => sel (i_val e)) es)) ++ [93%N].
Proof.
  intros H1 H2 Hq Hsel. fold (doc w1 (CArr w es) w2).
  rewrite get_any_end by (right; right; eauto). rewrite lstart_arr by auto. rewrite larr_all.
  assert (Hin : forall e, In e es -> wf (i_val e)) by (intros e He; apply wf_ival; apply (proj1 (Forall_forall _ _) (wf_items _ _ H2)); auto).
  assert (Hm : forall e ix, In e es -> (let '(lh, op, rh) := qparts q in elem_matches get (tval (i_val e) ix) lh op rh) = Ok (sel (i_val e))).
  { intros e ix He. specialize (Hsel e He). apply q_holds_ematch in Hsel; auto. unfold ematch in Hsel. destruct (qparts q) as [[lh op] rh].
    rewrite (elem_matches_ix get _ ix None) by auto. exact Hsel. }
  destruct (qparts q) as [[lh op] rh]. cbn [bind]. rewrite next_group_spec. cbn [cpath p_sep N.eqb bind].
  destruct (elems_results (fun v =>
             m <- elem_matches get v lh op rh ;; (if m : bool then Ok (Some v) else Ok None))
    (fun c ix => if sel c then Some (tval c ix) else None) (doc w1 (CArr w es) w2) w es w2 H2) as (ixs & Hlen & HF).
  { intros e ix He. rewrite Hm by auto. cbn [bind]. destruct (sel (i_val e)); reflexivity. }
  rewrite (push_all_opt _ _ _ _ HF). cbn [bind p_more p_sep N.eqb negb].
  rewrite push_list0.
  assert (E : map v_json (filter v_exists (flat_map (fun o => match o with Some y => [y] | None => [] end)
      (map (fun ei : item cst * option nat => if sel (i_val (fst ei)) then Some (tval (i_val (fst ei)) (snd ei)) else None) (combine es ixs)))) =
      map (fun e => render (i_val e)) (filter (fun e => sel (i_val e)) es)).
  { clear -Hlen Hin. revert ixs Hlen. induction es as [|e es IH]; intros [|ix ixs] Hlen; cbn [length] in Hlen; try lia; auto.
    cbn [combine map flat_map filter fst snd].
    destruct (sel (i_val e)); cbn [app filter]; [|apply IH; auto; intros; apply Hin; right; auto].
    rewrite tval_exists by (apply Hin; left; auto). cbn [map]. rewrite IH by (auto; intros; apply Hin; right; auto).
    reflexivity. }
  rewrite E. eexists. split; [reflexivity|]. auto.
Qed.

Lemma get_query_each w1 w es w2 q (sel : cst -> bool) ks (res : cst -> value) : ws w1 -> wf (CArr w es) -> balanced q ->
  Forall any_comp ks -> ks <> [] ->
  (forall e, In e es -> q_holds (i_val e) q (sel (i_val e))) ->
  (forall e, In e es -> sel (i_val e) = true -> get (render (i_val e)) (dotted ks) = Ok (res (i_val e))) ->
  exists v, get (w1 ++ render (CArr w es) ++ w2) (qcomp q true ++ 46%N :: dotted ks) = Ok v /\ v_exists v = true /\ v_kind v = KArray /\
    v_json v = 91%N :: commas (map v_json (filter v_exists (map (fun e => res (i_val e)) (filter (fun e => sel (i_val e)) es)))) ++ [93%N].
Proof.
  intros H1 H2 Hq Hks Hn Hsel Hres. fold (doc w1 (CArr w es) w2).
  rewrite get_any_sep by (try (right; right; eauto); try discriminate; reflexivity). rewrite lstart_arr by auto. rewrite larr_all.
  assert (Hin : forall e, In e es -> wf (i_val e)) by (intros e He; apply wf_ival; apply (proj1 (Forall_forall _ _) (wf_items _ _ H2)); auto).
  assert (Hm : forall e ix, In e es -> (let '(lh, op, rh) := qparts q in elem_matches get (tval (i_val e) ix) lh op rh) = Ok (sel (i_val e))).
  { intros e ix He. specialize (Hsel e He). apply q_holds_ematch in Hsel; auto. unfold ematch in Hsel. destruct (qparts q) as [[lh op] rh].
    rewrite (elem_matches_ix get _ ix None) by auto. exact Hsel. }
  destruct (qparts q) as [[lh op] rh]. cbn [bind]. rewrite next_group_spec. cbn [cpath p_sep N.eqb Pos.eqb p_extra].
  destruct (group_dotted ks Hks Hn) as (r & -> & Hr). cbn [bind].
  destruct (elems_results (fun v =>
             m <- elem_matches get v lh op rh ;; (if m : bool then x <- v_get_with get v (dotted ks) ;; Ok (Some x) else Ok None))
    (fun c ix => if sel c then Some (add_index ix (res c)) else None) (doc w1 (CArr w es) w2) w es w2 H2) as (ixs & Hlen & HF).
  { intros e ix He. rewrite Hm by auto. cbn [bind]. destruct (sel (i_val e)) eqn:Es; [|reflexivity].
    rewrite v_get_tval by auto. rewrite Hres by auto. reflexivity. }
  rewrite (push_all_opt _ _ _ _ HF). cbn [bind]. unfold p_more. rewrite Hr. cbn [N.eqb negb].
  rewrite push_list0.
  assert (E : map v_json (filter v_exists (flat_map (fun o => match o with Some y => [y] | None => [] end)
      (map (fun ei : item cst * option nat => if sel (i_val (fst ei)) then Some (add_index (snd ei) (res (i_val (fst ei)))) else None) (combine es ixs)))) =
      map v_json (filter v_exists (map (fun e => res (i_val e)) (filter (fun e => sel (i_val e)) es)))).
  { clear -Hlen. revert ixs Hlen. induction es as [|e es IH]; intros [|ix ixs] Hlen; cbn [length] in Hlen; try lia; auto.
    cbn [combine map flat_map filter fst snd].
    destruct (sel (i_val e)); cbn [app filter map]; [|apply IH; auto].
    change (v_exists (add_index ix (res (i_val e)))) with (v_exists (res (i_val e))).
    destruct (v_exists (res (i_val e))); cbn [map]; rewrite IH by lia; reflexivity. }
  rewrite E. eexists. split; [reflexivity|]. auto.
Qed.

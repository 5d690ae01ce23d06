(** Laws of queries. *)
From Verif Require Import P_Base P_Json P_Each P_Path P_LGet P_Parts P_Find P_Total P_Reach P_GetDoc P_GetArr P_Value P_Doc P_GetMod P_Taken P_Again P_Agree P_Query P_Truth P_FloatText P_Ord P_Scan P_Valid P_Pipe
  M_Util M_Num M_Value M_Path M_Get M_Valid S_Json S_Get S_Path S_Str S_Query S_Num S_Api S_Panic S_Taken S_Same S_Float S_Truth S_Filter.
From Coq Require Import Reals Lra.
Delimit Scope R_scope with R.

(* ---------- one element ---------- *)
Lemma text_tricho a b : text_lt a b \/ a = b \/ text_lt b a.
Proof. rewrite <- text_lt_bcmp, <- text_gt_bcmp. destruct (bcmp a b) eqn:E; auto. right. left. apply bcmp_eq, E. Qed.
Lemma text_irrefl a : ~ text_lt a a.
Proof. rewrite <- text_lt_bcmp. rewrite bcmp_refl. discriminate. Qed.
Lemma text_asym a b : text_lt a b -> ~ text_lt b a.
Proof. rewrite <- text_lt_bcmp, <- text_gt_bcmp. congruence. Qed.

(** What decides, for each kind. *)
Lemma sat_str x s o r : ~ tilde r -> v_exists x = true -> v_kind x = KString -> v_str x = Ok s -> (satisfies x o r <-> string_sat s o r).
Proof.
  intros Hr He Hk Hs. split; [|intros H; eapply sat_string; eauto].
  intros H. destruct H as [u a Hb H|r s' H1 H2 H3 H4 H5|r a b H1 H2 H3 H4 H5 H6|r a H1 H2 H3 H4].
  - exfalso. apply Hr. reflexivity.
  - congruence.
  - congruence.
  - rewrite Hk in H3. destruct a; discriminate.
Qed.
Lemma sat_num x a b o r : ~ tilde r -> v_exists x = true -> v_kind x = KNumber -> f64_reads (v_json x) a -> f64_reads r b ->
  (satisfies x o r <-> number_sat a o b).
Proof.
  intros Hr He Hk Ha Hb. split; [|intros H; eapply sat_number; eauto].
  intros H. destruct H as [u a' Hb' H|r s' H1 H2 H3 H4 H5|r a' b' H1 H2 H3 H4 H5 H6|r a' H1 H2 H3 H4].
  - exfalso. apply Hr. reflexivity.
  - congruence.
  - rewrite (reads_unique _ _ _ Ha H4), (reads_unique _ _ _ Hb H5). exact H6.
  - rewrite Hk in H3. destruct a'; discriminate.
Qed.
Lemma sat_boolean x a o r : ~ tilde r -> v_exists x = true -> v_kind x = bool_kind a -> (satisfies x o r <-> bool_sat a o r).
Proof.
  intros Hr He Hk. split; [|intros H; eapply sat_bool; eauto].
  intros H. destruct H as [u a' Hb' H|r s' H1 H2 H3 H4 H5|r a' b' H1 H2 H3 H4 H5 H6|r a' H1 H2 H3 H4].
  - exfalso. apply Hr. reflexivity.
  - rewrite Hk in H3. destruct a; discriminate.
  - rewrite Hk in H3. destruct a; discriminate.
  - replace a with a'; auto. rewrite Hk in H3. destruct a, a'; try reflexivity; discriminate.
Qed.
Lemma sat_truth x a o u : v_bool x = Ok a -> (satisfies x o (126%N :: u) <-> bool_sat a o u).
Proof.
  intros Ha. split; [|intros H; eapply sat_tilde; eauto].
  intros H. inversion H as [u' a' Hb' H'|r s' H1|r a' b' H1|r a' H1]; subst; try (exfalso; apply H1; reflexivity). congruence.
Qed.

Lemma opposite_sat x r o o' : (exists a, v_bool x = Ok a) -> (exists s, v_str x = Ok s) -> opposite x r o o' ->
  ~ (satisfies x o r /\ satisfies x o' r) /\ (~ satisfies x o r -> satisfies x o' r).
Proof.
  intros (a & Ea) (s & Es) H. destruct (N.eq_dec (hd 0%N r) 126) as [Ht|Ht].
  { destruct r as [|c u]; [discriminate|]. cbn [hd] in Ht. subst c.
    destruct H as [e He Hx|(_ & H & _)|(_ & H & _)|_ _ H]; try (exfalso; apply H; reflexivity).
    rewrite !(sat_truth _ _ _ _ Ea). destruct He as [<-|[<-|[]]]; cbn [bool_sat]; tauto. }
  assert (Htil : ~ tilde r) by exact Ht.
  assert (N : v_exists x = true -> v_kind x = KNumber -> exists a b, f64_reads (v_json x) a /\ f64_reads r b).
  { intros _ _. destruct (reads_total (v_json x)) as (p & Hp), (reads_total r) as (q & Hq). eauto. }
  destruct H as [e He [[Hx Hk]|Hx]|(Hx & _ & Hk)|(Hx & _ & Hk)|Hx Hk Hr].
  - assert (Hc : v_kind x = KString \/ v_kind x = KNumber \/ exists b, v_kind x = bool_kind b).
    { cbn [In] in Hk. destruct Hk as [Hk|[Hk|[Hk|[Hk|[]]]]]; auto; right; right; [exists true|exists false]; auto. }
    destruct Hc as [Hc|[Hc|(b & Hc)]].
    + rewrite !(sat_str x s) by auto. destruct He as [<-|[<-|[]]]; cbn [string_sat op_rel]; tauto.
    + destruct (N Hx Hc) as (p & q & Hp & Hq). rewrite !(sat_num x p q) by auto.
      destruct He as [<-|[<-|[]]]; destruct p, q; cbn [number_sat op_rel]; split; try tauto; intros [H _]; discriminate.
    + rewrite !(sat_boolean x b) by auto. destruct He as [<-|[<-|[]]]; cbn [bool_sat]; tauto.
  - contradiction.
  - destruct Hk as [Hk|(Hk & p & q & Hp & Hq)].
    + rewrite !(sat_str x s) by auto. cbn [string_sat op_rel]. pose proof (text_tricho s r). pose proof (text_asym s r). pose proof (text_irrefl s).
      split; [intros [H2 [H3|H3]]; [tauto | subst; tauto] | intros; tauto].
    + rewrite !(sat_num x (Some p) (Some q)) by auto. cbn [number_sat op_rel]. split; [intros; lra | intros H; lra].
  - destruct Hk as [Hk|(Hk & p & q & Hp & Hq)].
    + rewrite !(sat_str x s) by auto. cbn [string_sat op_rel]. pose proof (text_tricho s r). pose proof (text_asym s r). pose proof (text_irrefl s).
      split; [intros [H2 [H3|H3]]; [tauto | subst; tauto] | intros; tauto].
    + rewrite !(sat_num x (Some p) (Some q)) by auto. cbn [number_sat op_rel]. split; [intros; lra | intros H; lra].
  - rewrite !(sat_str x s) by auto. cbn [string_sat]. tauto.
Qed.

Theorem opposite_query c x q q' o o' r r1 : wf c -> asks c x q o r -> asks c x q' o' r ->
  trimmed r -> balanced r -> hd 0%N r <> 61%N -> rhs_reads r r1 ->
  (exists a, v_bool x = Ok a) -> (exists s, v_str x = Ok s) -> opposite x r1 o o' ->
  exists t, q_holds c q t /\ q_holds c q' (negb t).
Proof.
  intros Hc Ha Ha' H1 H2 H3 H4 H5 H6 Ho.
  destruct (holds_any c x q o r r1 Hc Ha H1 H2 H3 H4 H5 H6) as (t & Ht & It).
  destruct (holds_any c x q' o' r r1 Hc Ha' H1 H2 H3 H4 H5 H6) as (t' & Ht' & It').
  destruct (opposite_sat x r1 o o' H5 H6 Ho) as [D E].
  exists t. split; auto. replace (negb t) with t'; auto. destruct t, t'; try reflexivity; exfalso.
  - apply D. split; [apply It | apply It']; reflexivity.
  - assert (false = true); [|discriminate]. apply It', E. intros H. apply It in H. discriminate.
Qed.

Theorem or_equal c x q1 q2 q3 o o' r r1 : wf c -> (o, o') = (QLe, QLt) \/ (o, o') = (QGe, QGt) ->
  asks c x q1 o r -> asks c x q2 o' r -> asks c x q3 QEq r ->
  trimmed r -> balanced r -> hd 0%N r <> 61%N -> rhs_reads r r1 ->
  (exists a, v_bool x = Ok a) -> (exists s, v_str x = Ok s) -> orderable x r1 ->
  exists t u, q_holds c q2 t /\ q_holds c q3 u /\ q_holds c q1 (t || u) /\ t && u = false.
Proof.
  intros Hc Hoo A1 A2 A3 H1 H2 H3 H4 H5 H6 (Hx & Ht & Hk).
  destruct (holds_any c x q1 o r r1 Hc A1 H1 H2 H3 H4 H5 H6) as (t1 & T1 & I1).
  destruct (holds_any c x q2 o' r r1 Hc A2 H1 H2 H3 H4 H5 H6) as (t2 & T2 & I2).
  destruct (holds_any c x q3 QEq r r1 Hc A3 H1 H2 H3 H4 H5 H6) as (t3 & T3 & I3).
  assert (K : (satisfies x o r1 <-> satisfies x o' r1 \/ satisfies x QEq r1) /\ ~ (satisfies x o' r1 /\ satisfies x QEq r1)).
  { destruct H6 as (s & Es). destruct Hk as [Hk|(Hk & p & q & Hp & Hq)].
    - rewrite !(sat_str x s) by auto. pose proof (text_irrefl s). destruct Hoo as [E|E]; injection E as -> ->; cbn [string_sat op_rel];
        (split; [tauto | intros [H' ->]; tauto]).
    - rewrite !(sat_num x (Some p) (Some q)) by auto. destruct Hoo as [E|E]; injection E as -> ->; cbn [number_sat op_rel]; (split; [tauto | lra]). }
  destruct K as [K1 K2]. rewrite <- I1, <- I2, <- I3 in K1. rewrite <- I2, <- I3 in K2.
  exists t2, t3. split; auto. split; auto.
  assert (E : t1 = t2 || t3) by (apply Bool.eq_true_iff_eq; rewrite Bool.orb_true_iff; exact K1). rewrite <- E. split; auto.
  destruct t2, t3; cbn; auto. exfalso. apply K2. auto.
Qed.

Theorem incomparable c x q o r r1 : wf c -> asks c x q o r -> trimmed r -> balanced r -> hd 0%N r <> 61%N -> rhs_reads r r1 ->
  (exists a, v_bool x = Ok a) -> (exists s, v_str x = Ok s) -> ~ comparable x -> ~ tilde r1 -> q_holds c q false.
Proof.
  intros Hc Ha H1 H2 H3 H4 H5 H6 Hx Ht.
  destruct (holds_any c x q o r r1 Hc Ha H1 H2 H3 H4 H5 H6) as (t & T & I). destruct t; auto. exfalso.
  apply Hx. destruct (proj1 I eq_refl) as [u a Hb H|r' s' H1' H2' H3' H4' H5'|r' a' b' H1' H2' H3' H4'|r' a' H1' H2' H3' H4'].
  - exfalso. apply Ht. reflexivity.
  - split; auto. rewrite H3'. cbn; auto.
  - split; auto. rewrite H3'. cbn; auto.
  - split; auto. rewrite H3'. destruct a'; cbn; auto.
Qed.

(* ---------- the whole array ---------- *)
Definition bare_items (cs : list cst) : list (item cst) := map (fun c => Item [] c []) cs.
Definition tarr (cs : list cst) : cst := CArr [] (bare_items cs).
Lemma render_bare cs : map (render_item render) (bare_items cs) = map render cs.
Proof. unfold bare_items. rewrite map_map. apply map_ext. intros c. cbn [render_item app]. apply app_nil_r. Qed.
Lemma render_tarr cs : render (tarr cs) = 91%N :: commas (map render cs) ++ [93%N].
Proof. unfold tarr. cbn [render]. rewrite render_bare. reflexivity. Qed.
Lemma wf_tarr cs : Forall wf cs -> wf (tarr cs).
Proof.
  intros H. constructor; [constructor|]. unfold bare_items. apply Forall_map. eapply Forall_impl; [|exact H]. intros c Hc. constructor; auto; constructor.
Qed.
Lemma vals_bare cs : map i_val (bare_items cs) = cs.
Proof. unfold bare_items. rewrite map_map. apply map_id. Qed.

Definition hits (q t : bytes) : bool :=
  match get (91%N :: t ++ [93%N]) (qcomp q false) with Ok v => v_exists v | Err _ => false end.
Lemma hits_holds q c : calm (qcomp q false) -> q_holds c q (hits q (render c)).
Proof. intros H. unfold q_holds, hits. destruct (get_total (91%N :: render c ++ [93%N]) _ H) as (v & ->). eauto. Qed.
Lemma hits_picks q t b : calm (qcomp q false) -> (picks q t b <-> hits q t = b).
Proof.
  intros H. unfold picks, hits. destruct (get_total (91%N :: t ++ [93%N]) _ H) as (v & ->). split; [intros (w & [= <-] & E); exact E | eauto].
Qed.
Lemma filter_map_comm {A B} (f : A -> B) (p : B -> bool) l : filter p (map f l) = map f (filter (fun a => p (f a)) l).
Proof. induction l as [|a l IH]; auto. cbn [map filter]. rewrite IH. destruct (p (f a)); reflexivity. Qed.

Definition chosen (q : bytes) (cs : list cst) : list cst := filter (fun c => hits q (render c)) cs.
Lemma chosen_wf q cs : Forall wf cs -> Forall wf (chosen q cs).
Proof. intros H. unfold chosen. rewrite Forall_forall in *. intros c Hc. apply filter_In in Hc. apply H, Hc. Qed.
Lemma wf_vals w es : wf (CArr w es) -> Forall wf (map i_val es).
Proof. intros H. apply Forall_map. eapply Forall_impl; [|exact (wf_items _ _ H)]. intros e He. apply wf_ival, He. Qed.

Lemma all_chosen w1 w es w2 q : ws w1 -> wf (CArr w es) -> balanced q -> calm (qcomp q false) ->
  exists v, get (w1 ++ render (CArr w es) ++ w2) (qcomp q true) = Ok v /\ v_exists v = true /\ v_json v = render (tarr (chosen q (map i_val es))).
Proof.
  intros H1 H2 Hq Hc. destruct (get_query_all w1 w es w2 q (fun c => hits q (render c)) H1 H2 Hq) as (v & E & X & _ & J).
  { intros e He. apply hits_holds, Hc. }
  exists v. split; auto. split; auto. rewrite J, render_tarr. unfold chosen. rewrite filter_map_comm, map_map. reflexivity.
Qed.
Lemma chosen_tarr q cs : Forall wf cs -> balanced q -> calm (qcomp q false) ->
  exists v, get (render (tarr cs)) (qcomp q true) = Ok v /\ v_exists v = true /\ v_json v = render (tarr (chosen q cs)).
Proof.
  intros H Hq Hc. destruct (all_chosen [] [] (bare_items cs) [] q (Forall_nil _) (wf_tarr _ H) Hq Hc) as (v & E & X & J).
  fold (tarr cs) in E. cbn [app] in E. rewrite app_nil_r in E. rewrite vals_bare in J. eauto.
Qed.

Lemma find_text x y a b : x = Ok a -> y = Ok b -> returned a -> returned b -> v_exists a = true -> v_json a = v_json b -> same_find x y.
Proof.
  intros -> -> Ha Hb E J. exists a, b. split; auto. split; auto. destruct (text_decides a b Ha Hb E J) as [S _].
  split; [apply (sa_exists _ _ S) | auto].
Qed.
Lemma find_none x y a b : x = Ok a -> y = Ok b -> v_exists a = false -> v_exists b = false -> same_find x y.
Proof. intros -> -> Ha Hb. exists a, b. split; auto. split; auto. split; congruence. Qed.

Lemma any_q q all : balanced q -> any_comp (qcomp q all).
Proof. intros H. right. right. eauto. Qed.
Lemma pipe_q json q all B : balanced q -> get json (qcomp q all ++ 124%N :: B) = (v <- get json (qcomp q all) ;; v_get v B).
Proof.
  intros H. assert (H1 : [qcomp q all] <> []) by discriminate. assert (H2 : Forall any_comp [qcomp q all]) by (constructor; [apply any_q, H | constructor]).
  exact (get_pipe _ B json H1 H2).
Qed.

(** An array taken from a valid document. *)
Lemma array_doc s u : valid s = Ok true -> taken s u -> v_kind u = KArray ->
  returned u /\ exists w es r, v_json u = [] ++ render (CArr w es) ++ r /\ wf (CArr w es) /\
    exists l, v_array u = Ok l /\ map v_json l = map render (map i_val es).
Proof.
  intros Hv Ht Hk. split; [apply (taken_returned s u Ht)|].
  destruct (taken_presents s u Hv Ht) as [(X & K & _)|(c & Hc & [P1 P2 (r & Hr & Pj & _) _])]; [congruence|].
  rewrite P2 in Hk. apply kind_arr in Hk as (w & es & ->). cbn [kind_of] in P2.
  destruct (array_elements u w es r Hc P2 Pj) as (vs & E & F). exists w, es, r. split; [exact Pj|]. split; auto. exists vs. split; auto.
  clear - F. induction F as [|e x es vs Hs F IH]; auto. cbn [map]. rewrite IH. f_equal. apply (sh_json _ _ Hs).
Qed.
Lemma same_find_get u p q : returned u -> same_find (get (v_json u) p) (get (v_json u) q) -> same_find (v_get u p) (v_get u q).
Proof.
  intros Hu (a & b & Ea & Eb & X & S). destruct (vget_like u p a Hu Ea) as (a' & Ea' & Sa). destruct (vget_like u q b Hu Eb) as (b' & Eb' & Sb).
  exists a', b'. split; auto. split; auto. rewrite (sa_exists _ _ Sa), (sa_exists _ _ Sb). split; auto. intros H.
  eapply P_Again.same_trans; [exact Sa|]. eapply P_Again.same_trans; [apply S, H|]. apply P_Again.same_sym, Sb.
Qed.

Lemma then_get json q all B v x : balanced q -> get json (qcomp q all) = Ok v -> get (v_json v) B = Ok x ->
  exists y, get json (qcomp q all ++ 124%N :: B) = Ok y /\ same_answers y x.
Proof.
  intros Hq E Ex. rewrite pipe_q by auto. rewrite E. cbn [bind]. apply vget_like; auto. eapply ret_get; eauto.
Qed.

(** The first match is the first of all matches. *)
Theorem law_first_of s u q : valid s = Ok true -> taken s u -> v_kind u = KArray -> balanced q -> ~ tilde_after_pretty (qcomp q false) ->
  same_find (v_get u (qcomp q false)) (v_get u (qcomp q true ++ 124%N :: [48%N])).
Proof.
  intros Hv Ht Hk Hq Hc. destruct (array_doc s u Hv Ht Hk) as (Hu & w & es & r & J & Hw & _). apply same_find_get; auto. rewrite J.
  destruct (all_chosen [] w es r q (Forall_nil _) Hw Hq Hc) as (v & E & X & Jv).
  assert (Hwf := wf_vals _ _ Hw). assert (Hd : digits1 [48%N]) by (repeat constructor; discriminate || lia).
  destruct (chosen q (map i_val es)) as [|c cs] eqn:Ech.
  - destruct (proj2 (get_query [] w es r q (Forall_nil _) Hw Hq)) as (a & Ea & Xa).
    { apply Forall_forall. intros e He. pose proof (hits_holds q (i_val e) Hc) as H. destruct (hits q (render (i_val e))) eqn:Eh; auto. exfalso.
      assert (In (i_val e) (chosen q (map i_val es))) by (apply filter_In; split; [apply in_map, He | exact Eh]). rewrite Ech in H0. contradiction. }
    destruct (proj2 (get_index [] [] [] [] [48%N] 0 (Forall_nil _) (wf_tarr [] (Forall_nil _)) Hd eq_refl)) as (b & Eb & Xb); [cbn; lia|].
    destruct (then_get _ q true [48%N] v b Hq E) as (y & Ey & Sy); [rewrite Jv; exact Eb|].
    eapply find_none; eauto. rewrite (sa_exists _ _ Sy). exact Xb.
  - assert (D : exists a e b, es = a ++ e :: b /\ i_val e = c /\ Forall (fun x => hits q (render (i_val x)) = false) a /\ hits q (render c) = true).
    { clear - Ech. induction es as [|e es IH]; [discriminate|]. unfold chosen in Ech. cbn [map filter] in Ech.
      destruct (hits q (render (i_val e))) eqn:Eh.
      - injection Ech as <- _. exists [], e, es. auto.
      - destruct IH as (a & e' & b & -> & He & Ha & Hh); auto. exists (e :: a), e', b. auto. }
    destruct D as (a & e & b & Ees & <- & Ha & He).
    destruct (proj1 (get_query [] w es r q (Forall_nil _) Hw Hq) a e b Ees) as (x & Ex & Sx).
    { eapply Forall_impl; [|exact Ha]. intros z Hz. cbn beta in Hz. rewrite <- Hz. apply hits_holds, Hc. }
    { rewrite <- He. apply hits_holds, Hc. }
    assert (Hcw : Forall wf (i_val e :: cs)) by (rewrite <- Ech; apply chosen_wf, Hwf).
    destruct (proj1 (get_index [] [] (bare_items (i_val e :: cs)) [] [48%N] 0 (Forall_nil _) (wf_tarr _ Hcw) Hd eq_refl) (Item [] (i_val e) []) eq_refl) as (y & Ey & Sy); [lia|].
    destruct (then_get _ q true [48%N] v y Hq E) as (z & Ez & Sz).
    { rewrite Jv. cbn [app] in Ey. rewrite app_nil_r in Ey. exact Ey. }
    eapply (find_text _ _ x z); eauto using returned; [apply (sh_exists _ _ Sx)|].
    rewrite (sa_json _ _ Sz), (sh_json _ _ Sx), (sh_json _ _ Sy). reflexivity.
Qed.

Lemma chosen_twice q cs : chosen q (chosen q cs) = chosen q cs.
Proof.
  unfold chosen. induction cs as [|c cs IH]; auto. cbn [filter]. destruct (hits q (render c)) eqn:E; auto. cbn [filter]. rewrite E. f_equal. exact IH.
Qed.
Lemma chosen_comm q r cs : chosen q (chosen r cs) = chosen r (chosen q cs).
Proof.
  unfold chosen. induction cs as [|c cs IH]; auto. cbn [filter]. destruct (hits q (render c)) eqn:E, (hits r (render c)) eqn:F; cbn [filter]; rewrite ?E, ?F, ?IH; reflexivity.
Qed.

Lemma two_filters w es r q q' : wf (CArr w es) -> balanced q -> balanced q' -> calm (qcomp q false) -> calm (qcomp q' false) ->
  exists v, get ([] ++ render (CArr w es) ++ r) (qcomp q true ++ 124%N :: qcomp q' true) = Ok v /\ v_exists v = true /\
    v_json v = render (tarr (chosen q' (chosen q (map i_val es)))).
Proof.
  intros Hw Hq Hq' Hc Hc'. destruct (all_chosen [] w es r q (Forall_nil _) Hw Hq Hc) as (v & E & X & Jv).
  destruct (chosen_tarr q' (chosen q (map i_val es)) (chosen_wf _ _ (wf_vals _ _ Hw)) Hq' Hc') as (x & Ex & Xx & Jx).
  destruct (then_get _ q true (qcomp q' true) v x Hq E) as (y & Ey & Sy); [rewrite Jv; exact Ex|].
  exists y. split; auto. rewrite (sa_exists _ _ Sy), (sa_json _ _ Sy). auto.
Qed.

Theorem law_twice s u q : valid s = Ok true -> taken s u -> v_kind u = KArray -> balanced q -> ~ tilde_after_pretty (qcomp q false) ->
  same_find (v_get u (qcomp q true ++ 124%N :: qcomp q true)) (v_get u (qcomp q true)).
Proof.
  intros Hv Ht Hk Hq Hc. destruct (array_doc s u Hv Ht Hk) as (Hu & w & es & r & J & Hw & _). apply same_find_get; auto. rewrite J.
  destruct (all_chosen [] w es r q (Forall_nil _) Hw Hq Hc) as (v & E & X & Jv).
  destruct (two_filters w es r q q Hw Hq Hq Hc Hc) as (x & Ex & Xx & Jx).
  eapply (find_text _ _ x v); eauto using returned. rewrite Jx, Jv, chosen_twice. reflexivity.
Qed.
Theorem law_order s u q q' : valid s = Ok true -> taken s u -> v_kind u = KArray -> balanced q -> balanced q' ->
  ~ tilde_after_pretty (qcomp q false) -> ~ tilde_after_pretty (qcomp q' false) ->
  same_find (v_get u (qcomp q true ++ 124%N :: qcomp q' true)) (v_get u (qcomp q' true ++ 124%N :: qcomp q true)).
Proof.
  intros Hv Ht Hk Hq Hq' Hc Hc'. destruct (array_doc s u Hv Ht Hk) as (Hu & w & es & r & J & Hw & _). apply same_find_get; auto. rewrite J.
  destruct (two_filters w es r q q' Hw Hq Hq' Hc Hc') as (x & Ex & Xx & Jx).
  destruct (two_filters w es r q' q Hw Hq' Hq Hc' Hc) as (y & Ey & Xy & Jy).
  eapply (find_text _ _ x y); eauto using returned. rewrite Jx, Jy, chosen_comm. reflexivity.
Qed.

(** What array() gives. *)
Lemma array_tarr cs v : Forall wf cs -> v_kind v = KArray -> v_json v = render (tarr cs) -> exists l, v_array v = Ok l /\ map v_json l = map render cs.
Proof.
  intros H Hk J. destruct (array_elements v [] (bare_items cs) [] (wf_tarr _ H) Hk) as (vs & E & F); [rewrite app_nil_r; exact J|].
  exists vs. split; auto. transitivity (map render (map i_val (bare_items cs))); [|rewrite vals_bare; reflexivity]. clear - F. induction F as [|e x es vs Hs F IH]; auto. cbn [map]. rewrite IH. f_equal. apply (sh_json _ _ Hs).
Qed.
Theorem law_all s u q l : valid s = Ok true -> taken s u -> v_kind u = KArray -> v_array u = Ok l -> balanced q ->
  ~ tilde_after_pretty (qcomp q false) ->
  exists v m sel, v_get u (qcomp q true) = Ok v /\ v_array v = Ok m /\
    (forall x, In x l -> picks q (v_json x) (sel (v_json x))) /\ map v_json m = filter sel (map v_json l).
Proof.
  intros Hv Ht Hk Hl Hq Hc. destruct (array_doc s u Hv Ht Hk) as (Hu & w & es & r & J & Hw & l' & El & Ml). rewrite Hl in El. injection El as <-.
  destruct (get_query_all [] w es r q (fun c => hits q (render c)) (Forall_nil _) Hw Hq) as (v & E & X & K & Jv).
  { intros e He. apply hits_holds, Hc. }
  destruct (vget_like u (qcomp q true) v Hu) as (v' & E' & S'); [rewrite J; exact E|].
  assert (Hch : v_json v' = render (tarr (chosen q (map i_val es)))).
  { rewrite (sa_json _ _ S'), Jv, render_tarr. unfold chosen. rewrite filter_map_comm, map_map. reflexivity. }
  destruct (array_tarr (chosen q (map i_val es)) v' (chosen_wf _ _ (wf_vals _ _ Hw))) as (m & Em & Mm); auto; [rewrite (sa_kind _ _ S'); exact K|].
  exists v', m, (hits q). split; auto. split; auto. split; [intros x _; apply hits_picks; auto|]. rewrite Mm, Ml. unfold chosen. symmetry. apply filter_map_comm.
Qed.
(** Opposite queries divide the array. *)
Theorem law_divide s u q q' l : valid s = Ok true -> taken s u -> v_kind u = KArray -> v_array u = Ok l -> balanced q -> balanced q' ->
  ~ tilde_after_pretty (qcomp q false) -> ~ tilde_after_pretty (qcomp q' false) ->
  (forall x, In x l -> exists t, picks q (v_json x) t /\ picks q' (v_json x) (negb t)) ->
  exists v v' m m' sel, v_get u (qcomp q true) = Ok v /\ v_array v = Ok m /\ v_get u (qcomp q' true) = Ok v' /\ v_array v' = Ok m' /\
    map v_json m = filter sel (map v_json l) /\ map v_json m' = filter (fun t => negb (sel t)) (map v_json l) /\ length m + length m' = length l.
Proof.
  intros Hv Ht Hk Hl Hq Hq' Hc Hc' Ho.
  destruct (law_all s u q l Hv Ht Hk Hl Hq Hc) as (v & m & sel & E & M & P & F).
  destruct (law_all s u q' l Hv Ht Hk Hl Hq' Hc') as (v' & m' & sel' & E' & M' & P' & F').
  assert (D : Forall (fun x => sel' (v_json x) = negb (sel (v_json x))) l).
  { apply Forall_forall. intros x Hx. destruct (Ho x Hx) as (t & T & T'). specialize (P x Hx). specialize (P' x Hx).
    apply hits_picks in T, T', P, P'; auto. congruence. }
  assert (G : filter sel' (map v_json l) = filter (fun t => negb (sel t)) (map v_json l)).
  { clear - D. induction D as [|x l Hx D IH]; auto. cbn [map filter]. rewrite Hx, IH. reflexivity. }
  rewrite G in F'. exists v, v', m, m', sel. repeat (split; auto).
  rewrite <- (map_length v_json m), <- (map_length v_json m'), F, F', <- (map_length v_json l). clear.
  induction (map v_json l) as [|t k IH]; auto. cbn [filter]. destruct (sel t); cbn [negb length]; lia.
Qed.

(** A sub-path behind the query is the sub-path for each match. *)
Theorem law_each s u q ks : valid s = Ok true -> taken s u -> v_kind u = KArray -> balanced q -> ~ tilde_after_pretty (qcomp q false) ->
  Forall any_comp ks -> ks <> [] -> ~ tilde_after_pretty (dotted ks) ->
  same_find (v_get u (qcomp q true ++ 46%N :: dotted ks)) (v_get u (qcomp q true ++ 124%N :: 35%N :: 46%N :: dotted ks)).
Proof.
  intros Hv Ht Hk Hq Hc Hks Hn Hck. destruct (array_doc s u Hv Ht Hk) as (Hu & w & es & r & J & Hw & _). apply same_find_get; auto. rewrite J.
  set (res := fun c => match get (render c) (dotted ks) with Ok v => v | Err _ => value_default end).
  assert (Hres : forall c, get (render c) (dotted ks) = Ok (res c)) by (intros c; unfold res; destruct (get_total (render c) _ Hck) as (v & ->); reflexivity).
  destruct (get_query_each [] w es r q (fun c => hits q (render c)) ks res (Forall_nil _) Hw Hq Hks Hn) as (x & Ex & Xx & _ & Jx); auto.
  { intros e He. apply hits_holds, Hc. }
  destruct (all_chosen [] w es r q (Forall_nil _) Hw Hq Hc) as (v & E & X & Jv).
  assert (Hcw := chosen_wf q _ (wf_vals _ _ Hw)).
  destruct (get_each [] [] (bare_items (chosen q (map i_val es))) [] ks res (Forall_nil _) (wf_tarr _ Hcw) Hks Hn) as (y & Ey & Xy & _ & Jy); auto.
  destruct (then_get _ q true (35%N :: 46%N :: dotted ks) v y Hq E) as (z & Ez & Sz).
  { rewrite Jv. cbn [app] in Ey. rewrite app_nil_r in Ey. exact Ey. }
  eapply (find_text _ _ x z); eauto using returned. rewrite (sa_json _ _ Sz), Jx, Jy. f_equal. f_equal. f_equal. f_equal. f_equal. unfold bare_items, chosen.
  rewrite map_map, filter_map_comm, map_map. reflexivity.
Qed.

(** Behind a query for the first match the dot is the pipe, in every text at all that does not begin like an object. *)
Theorem law_dot w t q p : blank w -> (32 < hd 0 t)%N -> hd 0%N t <> 123%N -> balanced q ->
  get (w ++ t) (qcomp q false ++ 46%N :: p) = get (w ++ t) (qcomp q false ++ 124%N :: p).
Proof.
  intros Hw Ht1 Ht2 Hq. rewrite !get_any_sep by (try apply any_q; auto; discriminate).
  assert (D : dropw above_sp (w ++ t) = t).
  { induction Hw as [|c w Hc Hw IH]; cbn [app].
    - destruct t as [|c t]; auto. cbn [hd] in Ht1. cbn [dropw]. unfold above_sp. replace (32 <? c)%N with true by lia. reflexivity.
    - cbn [dropw]. unfold above_sp at 1. replace (32 <? c)%N with false by lia. exact IH. }
  unfold lstart. rewrite D. destruct t as [|c t]; [reflexivity|]. cbn [hd] in Ht2. replace (c =? 123)%N with false by lia.
  destruct (c =? 91)%N; [|reflexivity]. rewrite !larr_one. destruct (qparts q) as [[lh op] rh]. cbn [bind].
  destruct (find_r _ _); reflexivity.
Qed.

(** Whole paths, queries, modifiers and multipaths do not notice the order of members. *)
From Coq Require Import String Arith Lia List NArith ZArith Bool Permutation.
From Verif Require Import P_Base P_Json P_Valid P_ValidSpec P_Str P_Doc P_Each P_LGet P_Value P_GetArr P_Closed P_Eval P_ModDoc P_ModFlat P_ModJoin P_Taken P_GetMod P_Again
  P_Total P_Reach P_Run P_Multi P_Entry P_Laws P_Mixed P_Query P_Truth P_Tree P_Agree P_Said P_Blind P_Shuffle
  M_Base M_Util M_Num M_Scan M_Value M_Valid M_Get S_Json S_Str S_Get S_Path S_Query S_Tree S_Follow S_Mod S_Join S_Multi S_Bad S_Entry S_Run S_Eval S_Api S_Taken S_Same S_Panic S_Truth S_Compose S_Said S_Shuffle.
Import ListNotations.
Open Scope list_scope.
Open Scope nat_scope.

(* ---------- texts ---------- *)

Lemma reord_refl s : reordered s s.
Proof. left. reflexivity. Qed.
Lemma oc_said c c' w w' : oc c c' -> ws w -> ws w' -> reordered (render c ++ w) (render c' ++ w').
Proof. intros (E & H & H') W W'. right. exists (cont c), (cont c'). split; [apply says_render; auto|]. split; [apply says_render; auto|exact E]. Qed.
Lemma oc_render c c' : oc c c' -> reordered (render c) (render c').
Proof. intros H. rewrite <- (app_nil_r (render c)), <- (app_nil_r (render c')). apply oc_said; auto; constructor. Qed.
Lemma reord_docs s s' : reordered s s' -> s = s' \/ exists w1 c w2 w1' c' w2',
  s = w1 ++ render c ++ w2 /\ s' = w1' ++ render c' ++ w2' /\ ws w1 /\ ws w2 /\ ws w1' /\ ws w2' /\ oc c c'.
Proof.
  intros [->|(t & t' & A & B & S)]; [left; reflexivity|right].
  apply says_doc in A as (w1 & c & w2 & H1 & Hc & H2 & E & <-).
  apply says_doc in B as (w1' & c' & w2' & H1' & Hc' & H2' & E' & <-). exists w1, c, w2, w1', c', w2'. repeat split; auto.
Qed.
Lemma reord_exists v v' : reordered (v_json v) (v_json v') -> v_exists v = v_exists v'.
Proof.
  unfold v_exists. intros [->|(t & t' & A & B & _)]; [reflexivity|]. apply says_nonempty in A. apply says_nonempty in B.
  destruct (v_json v), (v_json v'); congruence.
Qed.

(* ---------- components ---------- *)

Theorem steady_path ss : steps_ok ss -> ss <> [] -> ~ tilde_after_pretty (dotted (map step_text ss)) ->
  (forall k, In (Name k) ss -> single k) ->
  (forall q al, In (Query q al) ss -> steady_query q) -> steady (dotted (map step_text ss)).
Proof.
  intros Hok Hne Hc Hk Hq s s' H. apply reord_docs in H as [<-|(w1 & c & w2 & w1' & c' & w2' & -> & -> & H1 & H2 & H1' & H2' & E)].
  - destruct (get_total s _ Hc) as (v & Ev). exists v, v. split; [exact Ev|]. split; [exact Ev|]. apply reord_refl.
  - pose proof (meaning0 ss (proj1 Hok) Hc) as M.
    pose proof (get_result _ _ _ ss c w1 w2 M Hok Hne H1 (proj1 (proj2 E))) as A.
    pose proof (get_result _ _ _ ss c' w1' w2' M Hok Hne H1' (proj2 (proj2 E))) as B.
    assert (S : osim (result match0 index0 holds0 ss c) (result match0 index0 holds0 ss c')).
    { apply osim_flat. apply (eval_osim _ _ _ ss); auto.
      - intros q al d d' Hi (Ed & Wd & Wd').
        apply (q_holds_fun d' q); [|apply (mn_holds _ _ _ _ M q al); auto].
        apply (Hq q al Hi d d'); auto. apply (mn_holds _ _ _ _ M q al); auto.
      - intros k n n' Hi Hn Hn'. apply (mn_match _ _ _ _ M k n Hi) in Hn. apply (mn_match _ _ _ _ M k n' Hi) in Hn'. exact (Hk k Hi n n' Hn Hn'). }
    destruct (result _ _ _ ss c) as [d|], (result _ _ _ ss c') as [d'|]; try contradiction.
    + destruct A as (v & Ev & Sv), B as (v' & Ev' & Sv'). exists v, v'. split; [exact Ev|]. split; [exact Ev'|].
      rewrite (sh_json _ _ Sv), (sh_json _ _ Sv'). apply oc_render, S.
    + destruct A as (v & Ev & Sv), B as (v' & Ev' & Sv'). exists v, v'. split; [exact Ev|]. split; [exact Ev'|].
      rewrite (none_json _ Sv), (none_json _ Sv'). apply reord_refl.
Qed.

(* ---------- values ---------- *)

Lemma reord_like x x' : returned x -> returned x' -> reordered (v_json x) (v_json x') -> like x x'.
Proof.
  intros Hr Hr' H. pose proof (reord_exists x x' H) as He. destruct H as [E|(t & t' & A & B & S)].
  - apply said_like; auto. left. exact E.
  - destruct (says_presents x t Hr A) as (c & Hc & <- & P). destruct (says_presents x' _ Hr' B) as (c' & Hc' & <- & P').
    destruct (is_container c) eqn:K.
    + pose proof (shc_kind c c' S) as Ek. constructor; [exact He| | |].
      * intros _. rewrite (pr_kind _ _ P), (pr_kind _ _ P'). exact Ek.
      * intros _ Q. rewrite (pr_kind _ _ P) in Q. destruct c; discriminate.
      * intros _ Q. rewrite (pr_kind _ _ P) in Q. destruct c; discriminate.
    + apply shc_leaf in S as (E & _); [|exact K]. apply said_like; auto. right. exists (cont c). split; [exact A|]. rewrite E. exact B.
Qed.

(* ---------- queries ---------- *)

Definition steady_lhs (l : bytes) : Prop := l = [] \/ steady l /\ ~ escape_in_pretty l.

Lemma lhs_olike l c c' : steady_lhs l -> oc c c' -> exists x x', lhs_of c l x /\ lhs_of c' l x' /\ like x x' /\
  accessors_return x /\ accessors_return x'.
Proof.
  intros Hl E. pose proof (oc_render c c' E) as R. destruct E as (E & Hc & Hc').
  destruct Hl as [->|[Hb Hs]].
  - destruct (P_Blind.shown c Hc) as (x & S & Rx & A), (P_Blind.shown c' Hc') as (x' & S' & Rx' & A'). exists x, x'.
    split; [exact S|]. split; [exact S'|]. split; [|auto]. apply reord_like; auto. rewrite (sh_json _ _ S), (sh_json _ _ S'). exact R.
  - destruct l as [|b l].
    + destruct (P_Blind.shown c Hc) as (x & S & Rx & A), (P_Blind.shown c' Hc') as (x' & S' & Rx' & A'). exists x, x'.
      split; [exact S|]. split; [exact S'|]. split; [|auto]. apply reord_like; auto. rewrite (sh_json _ _ S), (sh_json _ _ S'). exact R.
    + destruct (Hb _ _ R) as (x & x' & Ex & Ex' & S). exists x, x'. split; [exact Ex|]. split; [exact Ex'|]. split; [|split].
      * apply reord_like; auto; eapply ret_get; eassumption.
      * eapply get_accessors; [exact Ex|exact Hs|]. left. apply valid_one, Hc.
      * eapply get_accessors; [exact Ex'|exact Hs|]. left. apply valid_one, Hc'.
Qed.

Theorem steady_compare s0 l s1 o s2 r s3 r1 : blank s0 -> lhs l -> blank s1 -> blank s2 -> blank s3 ->
  steady_lhs l -> trimmed r -> balanced r -> hd 0%N r <> 61%N -> rhs_reads r r1 -> hd 0%N r1 <> 126%N ->
  steady_query (query s0 l s1 o s2 r s3).
Proof.
  intros B0 Hl B1 B2 B3 Hb Ht Hr He Hrr Hn c c' b Hc Hc' E Hq.
  destruct (lhs_olike l c c' Hb (conj E (conj Hc Hc'))) as (x & x' & X & X' & L & A & A').
  assert (Q : asks c x (query s0 l s1 o s2 r s3) o r) by (exists s0, l, s1, s2, s3; repeat split; auto; apply Hl).
  assert (Q' : asks c' x' (query s0 l s1 o s2 r s3) o r) by (exists s0, l, s1, s2, s3; repeat split; auto; apply Hl).
  destruct (holds_any c x _ o r r1 Hc Q Ht Hr He Hrr (ar_bool _ A) (ar_str _ A)) as (t & T & I).
  destruct (holds_any c' x' _ o r r1 Hc' Q' Ht Hr He Hrr (ar_bool _ A') (ar_str _ A')) as (t' & T' & I').
  rewrite (q_holds_fun _ _ _ _ Hq T). replace t with t'; [exact T'|]. apply eq_true_iff_eq. rewrite I, I'.
  split; apply like_satisfies; auto using like_sym.
Qed.
Theorem steady_exists s0 l s1 : blank s0 -> lhs l -> blank s1 -> steady_lhs l -> steady_query (s0 ++ l ++ s1).
Proof.
  intros B0 Hl B1 Hb c c' b Hc Hc' E Hq.
  destruct (lhs_olike l c c' Hb (conj E (conj Hc Hc'))) as (x & x' & X & X' & L & _).
  assert (Q : asks_exists c x (s0 ++ l ++ s1)) by (exists s0, l, s1; repeat split; auto; apply Hl).
  assert (Q' : asks_exists c' x' (s0 ++ l ++ s1)) by (exists s0, l, s1; repeat split; auto; apply Hl).
  rewrite (q_holds_fun _ _ _ _ Hq (holds_exists_q c x _ Hc Q)), (lk_exists _ _ L). apply holds_exists_q; auto.
Qed.

(* ---------- pipes ---------- *)

Theorem steady_pipe a b : whole a -> steady a -> steady b -> steady (a ++ 124%N :: b).
Proof.
  intros Hw Ha Hb s s' H. destruct (Ha s s' H) as (v & v' & E & E' & S). destruct (Hb _ _ S) as (x & x' & X & X' & T).
  pose proof (pipe_outcome s a b v Hw E) as O. rewrite X in O. apply outcome_ok in O as (y & Y & Sy).
  pose proof (pipe_outcome s' a b v' Hw E') as O. rewrite X' in O. apply outcome_ok in O as (y' & Y' & Sy').
  exists y, y'. split; [exact Y|]. split; [exact Y'|]. rewrite (sa_json _ _ Sy), (sa_json _ _ Sy'). exact T.
Qed.

(* ---------- modifiers ---------- *)

Lemma steady_mod p : ~ tilde_after_pretty p ->
  (forall w1 c w2 w1' c' w2', ws w1 -> ws w2 -> ws w1' -> ws w2' -> oc c c' ->
    exists r r', txt (w1 ++ render c ++ w2) p r /\ txt (w1' ++ render c' ++ w2') p r' /\ reordered r r') -> steady p.
Proof.
  intros Hc H s s' E. apply reord_docs in E as [<-|(w1 & c & w2 & w1' & c' & w2' & -> & -> & H1 & H2 & H1' & H2' & E)].
  - destruct (get_total s p Hc) as (v & Ev). exists v, v. split; [exact Ev|]. split; [exact Ev|]. apply reord_refl.
  - destruct (H w1 c w2 w1' c' w2' H1 H2 H1' H2' E) as (r & r' & (v & Ev & <-) & (v' & Ev' & <-) & S). exists v, v'. auto.
Qed.

Lemma steady_tidy m : tidy m -> steady m.
Proof.
  intros Hm. apply steady_mod.
  - apply calm_plain. destruct Hm as [<-|[<-|[<-|[<-|[]]]]]; vm_compute; intuition discriminate.
  - intros w1 c w2 w1' c' w2' H1 H2 H1' H2' (E & Hc & Hc').
    destruct (tidy_txt m (w1 ++ render c ++ w2) (erase c) Hm) as (r & T & R); [exists w1, c, w2; auto|].
    destruct (tidy_txt m (w1' ++ render c' ++ w2') (erase c') Hm) as (r' & T' & R'); [exists w1', c', w2'; auto|].
    exists r, r'. split; [exact T|]. split; [exact T'|]. right. exists (cont c), (cont c'). split; [apply says_reads, R|]. split; [apply says_reads, R'|exact E].
Qed.
Lemma NoDup_rev' {A} (l : list A) : NoDup l -> NoDup (rev l).
Proof. intros H. eapply Permutation_NoDup; [apply Permutation_rev|exact H]. Qed.
Lemma reversed_oc c c' : oc c c' -> oc (reversed c) (reversed c').
Proof.
  intros (E & H & H'). split; [|split; apply reversed_wf; auto]. destruct (is_container c) eqn:K.
  2:{ pose proof (shc_leaf _ _ E K) as (_ & K'). destruct c; try discriminate K; destruct c'; try discriminate K'; exact E. }
  destruct c as [ | | |n|b|w es|w ms]; try discriminate K.
  - apply shc_arr_inv in E as (w' & es' & -> & F). cbn [reversed]. apply shc_arr, F2_rev, F2_map.
    eapply F2_impl; [|exact F]. intros [? ? ?] [? ? ?] Q. exact Q.
  - apply shc_obj_inv in E as (w' & ms' & -> & F). cbn [reversed]. apply shc_obj.
    assert (Z : forall l l', Forall2 shm l l' -> Forall2 shm (rev (map bare_memb l)) (rev (map bare_memb l'))).
    { intros l l' Q. apply F2_rev, F2_map. eapply F2_impl; [|exact Q]. intros [? ? ? ? ? ?] [? ? ? ? ? ?] X. exact X. }
    destruct F as [F|(ms1 & N & F & P)]; [left; apply Z, F|right]. exists (rev (map bare_memb ms1)). split; [|split; [apply Z, F|]].
    + rewrite map_rev, map_map. apply NoDup_rev'. erewrite map_ext; [exact N|]. intros [? ? ? ? ? ?]. reflexivity.
    + eapply Permutation_trans; [apply Permutation_sym, Permutation_rev|]. eapply Permutation_trans; [|apply Permutation_rev]. apply Permutation_map, P.
Qed.
Lemma steady_reverse : steady mRev.
Proof.
  apply steady_mod.
  - apply calm_plain. vm_compute. intuition discriminate.
  - intros w1 c w2 w1' c' w2' H1 H2 H1' H2' E. exists (render (reversed c)), (render (reversed c')).
    split; [apply txt_rev; auto; apply E|]. split; [apply txt_rev; auto; apply E|]. apply oc_render, reversed_oc, E.
Qed.

Lemma own_said c c' w w' : oc c c' -> ws w -> ws w' -> reordered (own c w) (own c' w').
Proof. intros E W W'. rewrite !own_doc. cbn [app]. apply oc_said; auto using ws_own. Qed.


Lemma flat_deep_oc : forall c c', oc c c' -> Forall2 oc (flat_deep c) (flat_deep c').
Proof.
  induction c as [ | | |n|b|w es IH|w ms IH] using cst_ind'; intros c' E.
  1-5,7: pose proof (shc_kind _ _ (proj1 E)) as K; destruct c'; try discriminate K; cbn [flat_deep]; constructor; [exact E|constructor].
  destruct E as (E & H & H'). apply shc_arr_inv in E as (w' & es' & -> & F). cbn [flat_deep].
  inversion H as [| | | | |? ? _ Wes|]; subst. inversion H' as [| | | | |? ? _ Wes'|]; subst. clear H H'.
  induction F as [|e e' es es' E _ IHF]; [constructor|].
  inversion IH as [|? ? IHe IHes]; subst. inversion Wes as [|? ? We Wr]; subst. inversion Wes' as [|? ? We' Wr']; subst.
  cbn [flat_map]. apply Forall2_app; [|auto]. destruct e as [a v b], e' as [a' v' b']. apply IHe. exact (oc_item _ _ _ _ _ _ We We' E).
Qed.
Lemma not_arr_o c c' : oc c c' -> (forall w es, c <> CArr w es) -> forall w es, c' <> CArr w es.
Proof. intros (E & _) H w es ->. apply shc_kind in E. destruct c; try discriminate E. exact (H _ _ eq_refl). Qed.
Lemma steady_deep : steady mDeep.
Proof.
  apply steady_mod.
  - apply calm_plain. vm_compute. intuition discriminate.
  - intros w1 c w2 w1' c' w2' H1 H2 H1' H2' E. destruct (is_array c) as [(w & es & ->)|Ha].
    + pose proof (proj1 E) as E0. apply shc_arr_inv in E0 as (w' & es' & -> & _).
      exists (render (array_of (flat_deep (CArr w es)))), (render (array_of (flat_deep (CArr w' es')))).
      split; [apply deep_txt, md_flatten_deep; auto; apply E|]. split; [apply deep_txt, md_flatten_deep; auto; apply E|].
      apply oc_render, array_of_osim, flat_deep_oc, E.
    + exists (own c w2), (own c' w2'). split; [apply deep_txt, md_flatten_other; auto; apply E|].
      split; [apply deep_txt, md_flatten_other; auto; [apply E|exact (not_arr_o _ _ E Ha)]|]. apply own_said; auto.
Qed.

(* ---------- join ---------- *)

(** The value of the last member with the name [n]. *)
Fixpoint lastv (n : text) (ms : list (memb cst)) : option cst :=
  match ms with
  | [] => None
  | m :: t => match lastv n t with Some v => Some v | None => if list_eq_dec N.eq_dec (name_of m) n then Some (m_val m) else None end
  end.
Definition orel (o o' : option cst) : Prop := match o, o' with None, None => True | Some a, Some b => shc a b | _, _ => False end.
Lemma lastv_app n a b : lastv n (a ++ b) = match lastv n b with Some v => Some v | None => lastv n a end.
Proof. induction a as [|m a IH]; cbn [app lastv]; [destruct (lastv n b); reflexivity|]. rewrite IH. destruct (lastv n b); reflexivity. Qed.
Lemma lastv_none n ms : lastv n ms = None <-> ~ In n (map name_of ms).
Proof.
  induction ms as [|m ms IH]; cbn [lastv map In]; [tauto|]. destruct (lastv n ms) eqn:E.
  - split; [discriminate|]. intros H. exfalso. apply H. right. destruct (in_dec (list_eq_dec N.eq_dec) n (map name_of ms)) as [i|i]; [exact i|]. apply IH in i. discriminate.
  - destruct (list_eq_dec N.eq_dec (name_of m) n) as [e|e]; [split; [discriminate|tauto]|]. split; [|reflexivity]. intros _ [H|H]; [auto|]. apply IH; auto.
Qed.
Lemma lastv_F2 n ms ms' : Forall2 shm ms ms' -> orel (lastv n ms) (lastv n ms').
Proof.
  induction 1 as [|m m' ms ms' (E & V) _ IH]; [exact I|]. cbn [lastv]. destruct (lastv n ms), (lastv n ms'); try contradiction; [exact IH|].
  rewrite <- E. destruct (list_eq_dec N.eq_dec (name_of m) n); [exact V|exact I].
Qed.
Lemma lastv_in n ms m : NoDup (map name_of ms) -> In m ms -> name_of m = n -> lastv n ms = Some (m_val m).
Proof.
  induction ms as [|x ms IH]; intros N Hi E; [destruct Hi|]. cbn [map] in N. inversion N as [|? ? Nx N1]; subst. cbn [lastv].
  destruct Hi as [->|Hi].
  - apply lastv_none in Nx. rewrite Nx. destruct (list_eq_dec N.eq_dec _ _); [reflexivity|congruence].
  - rewrite (IH N1 Hi eq_refl). reflexivity.
Qed.
Lemma lastv_perm n ms ms' : NoDup (map name_of ms) -> Permutation ms ms' -> lastv n ms = lastv n ms'.
Proof.
  intros N P. assert (N' : NoDup (map name_of ms')) by (eapply Permutation_NoDup; [apply Permutation_map, P|exact N]).
  destruct (in_dec (list_eq_dec N.eq_dec) n (map name_of ms)) as [i|i].
  - apply in_map_iff in i as (m & E & Hi). rewrite (lastv_in n ms m N Hi E). symmetry. apply lastv_in; auto. eapply Permutation_in; eauto.
  - assert (i' : ~ In n (map name_of ms')) by (intros Q; apply i; eapply Permutation_in; [apply Permutation_sym, Permutation_map, P|exact Q]).
    apply lastv_none in i. apply lastv_none in i'. congruence.
Qed.
Lemma lastv_mixed n ms ms' : mixed ms ms' -> orel (lastv n ms) (lastv n ms').
Proof.
  intros [F|(ms1 & N & F & P)]; [apply lastv_F2, F|]. rewrite <- (lastv_perm n ms1 ms'); auto; [apply lastv_F2, F|]. rewrite <- (names_mixed _ _ F). exact N.
Qed.
Lemma lastv_members n es es' : Forall2 (fun e e' => shc (i_val e) (i_val e')) es es' -> orel (lastv n (all_members es)) (lastv n (all_members es')).
Proof.
  unfold all_members. induction 1 as [|e e' es es' E _ IH]; [exact I|]. cbn [flat_map]. rewrite !lastv_app.
  destruct (lastv n (flat_map _ es)), (lastv n (flat_map _ es')); try contradiction; [exact IH|].
  pose proof (shc_kind _ _ E) as K. destruct (i_val e) as [ | | |x|b|w l|w ms]; try (destruct (i_val e'); try discriminate K; exact I).
  apply shc_obj_inv in E as (w' & ms' & E & M). rewrite E. apply lastv_mixed, M.
Qed.
Lemma last_lastv ms m v : last_value ms m v -> lastv (name_of m) ms = Some v.
Proof.
  intros (a & l & b & -> & S & Nb & <-). apply same_name_iff in S. rewrite lastv_app. cbn [lastv].
  assert (Z : lastv (name_of m) b = None).
  { apply lastv_none. intros Hi. apply in_map_iff in Hi as (x & E & Hx). rewrite Forall_forall in Nb. apply (Nb x Hx), same_name_iff, E. }
  rewrite Z. destruct (list_eq_dec N.eq_dec _ _); [reflexivity|congruence].
Qed.
Lemma firsts_names ms fs : firsts ms fs -> NoDup (map name_of fs) /\ forall n, In n (map name_of fs) <-> In n (map name_of ms).
Proof.
  induction 1 as [|ms fs m _ (N & IH) Hn|ms fs m _ (N & IH) Ho].
  - split; [constructor|tauto].
  - rewrite !map_app. cbn [map]. split.
    + eapply Permutation_NoDup; [apply Permutation_cons_append|]. constructor; [|exact N]. rewrite IH. intros Hi. apply in_map_iff in Hi as (x & E & Hx). rewrite Forall_forall in Hn. apply (Hn x Hx), same_name_iff, E.
    + intros n. rewrite !in_app_iff, IH. tauto.
  - split; [exact N|]. intros n. rewrite map_app, in_app_iff, IH. cbn [map In]. split; [tauto|]. intros [H|[<-|[]]]; [exact H|].
    apply Exists_exists in Ho as (x & Hx & S). apply same_name_iff in S. rewrite <- S. apply in_map, Hx.
Qed.
Lemma mixed_in : forall ms ms', NoDup (map name_of ms) -> NoDup (map name_of ms') -> length ms = length ms' ->
  (forall m, In m ms -> exists m', In m' ms' /\ shm m m') -> exists ms1, Forall2 shm ms ms1 /\ Permutation ms1 ms'.
Proof.
  induction ms as [|m ms IH]; intros ms' N N' L H.
  - destruct ms'; [|discriminate L]. exists []. split; constructor.
  - destruct (H m (or_introl eq_refl)) as (m' & Hi & S). apply in_split in Hi as (a & b & ->). cbn [map] in N. inversion N as [|? ? Nm N1]; subst.
    destruct (IH (a ++ b)) as (ms1 & F & P).
    + exact N1.
    + rewrite map_app in *. cbn [map] in N'. apply NoDup_remove_1 in N'. exact N'.
    + rewrite app_length in *. cbn [length] in L. lia.
    + intros x Hx. destruct (H x (or_intror Hx)) as (x' & Hi & Sx). exists x'. split; [|exact Sx]. rewrite in_app_iff in *. cbn [In] in Hi.
      destruct Hi as [Hi|[<-|Hi]]; auto. exfalso. apply Nm. rewrite (proj1 S), <- (proj1 Sx). apply in_map, Hx.
    + exists (m' :: ms1). split; [constructor; auto|]. apply Permutation_cons_app, P.
Qed.
Lemma merged_mixed ms ms' out out' : (forall n, orel (lastv n ms) (lastv n ms')) -> merged ms out -> merged ms' out' -> mixed out out'.
Proof.
  intros L (fs & Hf & G) (fs' & Hf' & G'). destruct (firsts_names _ _ Hf) as (N & I1). destruct (firsts_names _ _ Hf') as (N' & I1').
  assert (O : forall ms fs out, Forall2 (fun m o => exists v, last_value ms m v /\ o = Memb [] (m_key m) [] [] v []) fs out ->
    map name_of fs = map name_of out /\ forall o, In o out -> lastv (name_of o) ms = Some (m_val o)).
  { clear. intros ms fs out. induction 1 as [|m o fs out (v & Lv & ->) _ (IH1 & IH2)]; [split; [reflexivity|intros o []]|]. cbn [map]. split.
    - f_equal. exact IH1.
    - intros o [<-|Ho]; [|auto]. exact (last_lastv _ _ _ Lv). }
  destruct (O _ _ _ G) as (E1 & E2), (O _ _ _ G') as (E1' & E2'). rewrite E1 in *. rewrite E1' in *.
  assert (J : forall n, In n (map name_of out) <-> In n (map name_of out')).
  { intros n. rewrite I1, I1'. specialize (L n). pose proof (lastv_none n ms) as Q. pose proof (lastv_none n ms') as Q'.
    destruct (in_dec (list_eq_dec N.eq_dec) n (map name_of ms)) as [i|i], (in_dec (list_eq_dec N.eq_dec) n (map name_of ms')) as [i'|i']; try tauto; exfalso.
    - apply Q' in i'. rewrite i' in L. destruct (lastv n ms) eqn:X; [contradiction|]. apply Q; auto.
    - apply Q in i. rewrite i in L. destruct (lastv n ms') eqn:X; [contradiction|]. apply Q'; auto. }
  destruct (mixed_in out out' N N') as (o1 & F & P).
  - rewrite <- (map_length name_of out), <- (map_length name_of out'). apply Permutation_length, NoDup_Permutation; auto.
  - intros m Hm. assert (Hn : In (name_of m) (map name_of out')) by (apply J, in_map, Hm). apply in_map_iff in Hn as (m' & E & Hm').
    exists m'. split; [exact Hm'|]. split; [auto|]. specialize (L (name_of m)). rewrite (E2 m Hm) in L. rewrite <- E in L at 1. rewrite (E2' m' Hm') in L. exact L.
  - right. exists o1. auto.
Qed.
Lemma steady_join : steady mJoin.
Proof.
  apply steady_mod.
  - apply calm_plain. vm_compute. intuition discriminate.
  - intros w1 c w2 w1' c' w2' H1 H2 H1' H2' E. destruct (is_array c) as [(w & es & ->)|Ha].
    + pose proof (proj1 E) as E0. apply shc_arr_inv in E0 as (w' & es' & -> & F).
      assert (D : exists dv, get (arg_text None) s_preserve = Ok dv /\ v_bool dv = Ok false) by (eexists; split; [vm_compute; reflexivity|]; vm_compute; reflexivity).
      destruct D as (dv & D1 & D2).
      destruct (get_join w1 w es w2 None dv H1 (proj1 (proj2 E)) H2 I D1 D2) as (v & out & G & S & W & M).
      destruct (get_join w1' w' es' w2' None dv H1' (proj2 (proj2 E)) H2' I D1 D2) as (v' & out' & G' & S' & W' & M').
      exists (render (CObj [] out)), (render (CObj [] out')).
      split; [exists v; split; [rewrite <- mod_join0; exact G|apply (sh_json _ _ S)]|].
      split; [exists v'; split; [rewrite <- mod_join0; exact G'|apply (sh_json _ _ S')]|].
      apply oc_render. split; [|split; [exact W|exact W']]. apply shc_obj. eapply merged_mixed; [|exact M|exact M']. intros n. apply lastv_members, F.
    + exists (own c w2), (own c' w2'). split; [apply mod_txt; [reflexivity|apply md_join_other; auto; apply E]|].
      split; [apply mod_txt; [reflexivity|apply md_join_other; auto; [apply E|exact (not_arr_o _ _ E Ha)]]|]. apply own_said; auto.
Qed.

Theorem steady_modifier m : In m [mThis; mValid; mUgly; mPretty; mRev; mJoin; mDeep] -> steady m.
Proof.
  intros [<-|[<-|[<-|[<-|[<-|[<-|[<-|[]]]]]]]].
  1-4: apply steady_tidy; unfold tidy; cbn [In]; auto.
  - exact steady_reverse.
  - exact steady_join.
  - exact steady_deep.
Qed.

(* ---------- multipaths ---------- *)

(** The results of the entries: pairs that say the same, each a piece with whitespace behind it. *)
Definition opieces2 (v v' : value) : Prop := v_exists v = v_exists v' /\
  (v_exists v = true -> exists c w c' w', v_json v = render c ++ w /\ v_json v' = render c' ++ w' /\ oc c c' /\ ws w /\ ws w').
Lemma entry_opieces w1 c w2 w1' c' w2' p : ws w1 -> ws w2 -> ws w1' -> ws w2' -> oc c c' -> tame p -> steady p ->
  exists v v', get (w1 ++ render c ++ w2) p = Ok v /\ get (w1' ++ render c' ++ w2') p = Ok v' /\ opieces2 v v'.
Proof.
  intros H1 H2 H1' H2' (E & Hc & Hc') Hp Hb.
  assert (S : reordered (w1 ++ render c ++ w2) (w1' ++ render c' ++ w2')).
  { right. exists (cont c), (cont c'). split; [|split; [|exact E]]; apply says_doc; [exists w1, c, w2|exists w1', c', w2']; auto 6. }
  destruct (Hb _ _ S) as (v & v' & Ev & Ev' & Sv). exists v, v'. split; [exact Ev|]. split; [exact Ev'|]. pose proof (reord_exists _ _ Sv) as He.
  split; [exact He|]. intros Hx.
  assert (R : returned v) by (eapply ret_get; exact Ev). assert (R' : returned v') by (eapply ret_get; exact Ev').
  assert (T : exists t t', says (v_json v) t /\ says (v_json v') t' /\ shuffled t t').
  { destruct Sv as [J|T]; [|exact T].
    destruct (tame_result _ p v (P_Tree.valid_render c w1 w2 Hc H1 H2) Hp Ev Hx) as (d & Hd & P).
    destruct (pr_json _ _ P) as (w & Hw & Jw & _). exists (cont d), (cont d). rewrite <- J, Jw. split; [apply says_render; auto|]. split; [apply says_render; auto|apply sf_same]. }
  destruct T as (t & t' & A & B & Ed). destruct (says_presents v t R A) as (d & Hd & <- & P). destruct (says_presents v' _ R' B) as (d' & Hd' & <- & P').
  destruct (pr_json _ _ P) as (w & Hw & Jw & _). destruct (pr_json _ _ P') as (w' & Hw' & Jw' & _).
  exists d, w, d', w'. repeat split; auto.
Qed.
Lemma entries_opieces w1 c w2 w1' c' w2' (es : list entry) : ws w1 -> ws w2 -> ws w1' -> ws w2' -> oc c c' ->
  Forall (fun e => tame (snd e) /\ steady (snd e)) es ->
  exists vs vs', Forall2 (fun e v => get (w1 ++ render c ++ w2) (snd e) = Ok v) es vs /\
    Forall2 (fun e v => get (w1' ++ render c' ++ w2') (snd e) = Ok v) es vs' /\ Forall2 opieces2 vs vs'.
Proof.
  intros H1 H2 H1' H2' E. induction 1 as [|e es (Hp & Hb) _ (vs & vs' & A & B & C)]; [exists [], []; auto|].
  destruct (entry_opieces w1 c w2 w1' c' w2' (snd e) H1 H2 H1' H2' E Hp Hb) as (v & v' & Ev & Ev' & P).
  exists (v :: vs), (v' :: vs'). repeat split; constructor; auto.
Qed.

Lemma array_opieces vs vs' : Forall2 opieces2 vs vs' -> exists l l',
  map v_json (filter v_exists vs) = map rend l /\ map v_json (filter v_exists vs') = map rend l' /\
  Forall2 (fun a b => oc (fst a) (fst b) /\ ws (snd a) /\ ws (snd b)) l l'.
Proof.
  induction 1 as [|v v' vs vs' (He & Hp) _ (l & l' & A & B & C)]; [exists [], []; auto|]. cbn [filter]. rewrite <- He.
  destruct (v_exists v) eqn:Ex; [|exists l, l'; auto]. destruct (Hp eq_refl) as (c & w & c' & w' & J & J' & E & W & W').
  exists ((c, w) :: l), ((c', w') :: l'). cbn [map]. unfold rend at 1 3. cbn [fst snd]. rewrite A, B, J, J'. split; [reflexivity|]. split; [reflexivity|]. constructor; auto.
Qed.
Lemma array_osaid l l' : Forall2 (fun a b => oc (fst a) (fst b) /\ ws (snd a) /\ ws (snd b)) l l' ->
  reordered (render (mkarrw l)) (render (mkarrw l')).
Proof.
  intros H. apply oc_render. split; [|split; apply wf_mkarrw].
  - unfold mkarrw. apply shc_arr, F2_map. cbn [i_val]. eapply F2_impl; [|exact H]. intros a b Q. apply Q.
  - induction H as [|a b l l' ((_ & X & Y) & Z & _)]; constructor; auto.
  - induction H as [|a b l l' ((_ & X & Y) & _ & Z)]; constructor; auto.
Qed.
Lemma object_opieces ks : forall vs vs', Forall2 opieces2 vs vs' -> exists l l',
  map (fun kv => escape (fst kv) ++ 58%N :: v_json (snd kv)) (filter (fun kv => v_exists (snd kv)) (combine ks vs)) =
    map (fun kv => json_string (fst kv) ++ 58%N :: rend (snd kv)) l /\
  map (fun kv => escape (fst kv) ++ 58%N :: v_json (snd kv)) (filter (fun kv => v_exists (snd kv)) (combine ks vs')) =
    map (fun kv => json_string (fst kv) ++ 58%N :: rend (snd kv)) l' /\
  Forall2 (fun a b => fst a = fst b /\ oc (fst (snd a)) (fst (snd b)) /\ ws (snd (snd a)) /\ ws (snd (snd b))) l l'.
Proof.
  induction ks as [|k ks IH]; intros vs vs' F; [exists [], []; auto|]. destruct F as [|v v' vs vs' (He & Hp) F]; [exists [], []; auto|].
  destruct (IH vs vs' F) as (l & l' & A & B & C). cbn [combine filter snd]. rewrite <- He.
  destruct (v_exists v) eqn:Ex; [|exists l, l'; auto]. destruct (Hp eq_refl) as (c & w & c' & w' & J & J' & E & W & W').
  exists ((k, (c, w)) :: l), ((k, (c', w')) :: l'). cbn [map]. rewrite A, B. cbn [fst snd]. unfold rend at 1 3. cbn [fst snd]. rewrite J, J'.
  split; [reflexivity|]. split; [reflexivity|]. constructor; auto.
Qed.
Lemma object_osaid l l' : Forall2 (fun a b => fst a = fst b /\ oc (fst (snd a)) (fst (snd b)) /\ ws (snd (snd a)) /\ ws (snd (snd b))) l l' ->
  reordered (render (mkobjw l)) (render (mkobjw l')).
Proof.
  intros H. apply oc_render. split; [|split; apply wf_mkobjw].
  - unfold mkobjw. apply shc_obj. left. apply F2_map. eapply F2_impl; [|exact H].
    intros a b (Q1 & (Q2 & _) & _). split; [rewrite !name_said; cbn [m_key]; rewrite Q1; reflexivity|exact Q2].
  - induction H as [|a b l l' (_ & (_ & X & Y) & Z & _)]; constructor; auto.
  - induction H as [|a b l l' (_ & (_ & X & Y) & _ & Z)]; constructor; auto.
Qed.
Theorem steady_array q es : balanced q -> entries q es -> ~ tilde_after_pretty (91%N :: q ++ [93%N]) ->
  Forall (fun e => tame (snd e) /\ steady (snd e)) es -> steady (91%N :: q ++ [93%N]).
Proof.
  intros Hq He Hc Hes. apply steady_mod; [exact Hc|]. intros w1 c w2 w1' c' w2' H1 H2 H1' H2' E.
  destruct (entries_opieces w1 c w2 w1' c' w2' es H1 H2 H1' H2' E Hes) as (vs & vs' & A & B & C).
  pose proof (mu_closed 91%N q [] Hq) as M. change (closing 91%N) with 93%N in M.
  destruct (array_any _ _ q [] es vs M He A) as (v & _ & _ & J & _ & G).
  destruct (array_any _ _ q [] es vs' M He B) as (v' & _ & _ & J' & _ & G').
  destruct (array_opieces vs vs' C) as (l & l' & L & L' & F). rewrite L in J. rewrite L' in J'.
  exists (v_json v), (v_json v'). split; [exists v; split; [exact (G no_rest)|reflexivity]|].
  split; [exists v'; split; [exact (G' no_rest)|reflexivity]|]. rewrite J, J'.
  pose proof (array_osaid l l' F) as S. rewrite !render_mkarrw in S. exact S.
Qed.
Theorem steady_object q es : balanced q -> entries q es -> ~ tilde_after_pretty (123%N :: q ++ [125%N]) ->
  Forall (fun e => tame (snd e) /\ steady (snd e)) es -> steady (123%N :: q ++ [125%N]).
Proof.
  intros Hq He Hc Hes. apply steady_mod; [exact Hc|]. intros w1 c w2 w1' c' w2' H1 H2 H1' H2' E.
  destruct (entries_opieces w1 c w2 w1' c' w2' es H1 H2 H1' H2' E Hes) as (vs & vs' & A & B & C).
  pose proof (mu_closed 123%N q [] Hq) as M. change (closing 123%N) with 125%N in M.
  destruct (object_any _ _ q [] es vs M He A) as (v & ks & _ & _ & K & J & _ & G).
  destruct (object_any _ _ q [] es vs' M He B) as (v' & ks' & _ & _ & K' & J' & _ & G').
  rewrite <- (keys_unique es ks ks' K K') in J'.
  destruct (object_opieces ks vs vs' C) as (l & l' & L & L' & F). rewrite L in J. rewrite L' in J'.
  exists (v_json v), (v_json v'). split; [exists v; split; [exact (G no_rest)|reflexivity]|].
  split; [exists v'; split; [exact (G' no_rest)|reflexivity]|]. rewrite J, J'.
  pose proof (object_osaid l l' F) as S. rewrite !render_mkobjw in S. exact S.
Qed.

(* ---------- accessors ---------- *)

Theorem reord_values x x' : returned x -> returned x' -> reordered (v_json x) (v_json x') ->
  v_exists x = v_exists x' /\ (v_exists x = true -> v_kind x = v_kind x').
Proof. intros Hr Hr' H. pose proof (reord_like x x' Hr Hr' H) as L. split; apply L. Qed.
(** What is neither array nor object says the same. *)
Theorem reord_leaf x x' : returned x -> returned x' -> reordered (v_json x) (v_json x') -> v_exists x = true ->
  v_kind x <> KArray -> v_kind x <> KObject -> same_said (v_json x) (v_json x').
Proof.
  intros Hr Hr' H He K1 K2. destruct H as [E|(t & t' & A & B & S)]; [left; exact E|right].
  destruct (says_presents x t Hr A) as (c & Hc & <- & P). exists (cont c). split; [exact A|]. destruct (says_presents x' _ Hr' B) as (c' & Hc' & <- & P').
  rewrite (pr_kind _ _ P) in K1, K2. apply shc_leaf in S as (E & _); [rewrite E; exact B|]. destruct c; try reflexivity; cbn in *; congruence.
Qed.
Theorem reord_array x x' : returned x -> returned x' -> reordered (v_json x) (v_json x') -> v_exists x = true -> v_kind x = KArray ->
  exists l l', v_array x = Ok l /\ v_array x' = Ok l' /\ Forall2 (fun a b => reordered (v_json a) (v_json b)) l l'.
Proof.
  intros Hr Hr' H He Hk. destruct H as [E|(t & t' & A & B & S)].
  - destruct (text_decides x x' Hr Hr' He E) as [S _]. destruct (array_returns x) as (l & El). exists l, l.
    split; [exact El|]. split; [rewrite <- (sa_array _ _ S); exact El|]. apply F2_refl. intros; apply reord_refl.
  - destruct (says_presents x t Hr A) as (c & Hc & <- & P). destruct (says_presents x' _ Hr' B) as (c' & Hc' & <- & P').
    rewrite (pr_kind _ _ P) in Hk. destruct c as [ | | | | |w es| ]; try discriminate Hk. apply shc_arr_inv in S as (w' & es' & -> & F).
    destruct (pr_json _ _ P) as (r & _ & J & _). destruct (pr_json _ _ P') as (r' & _ & J' & _).
    destruct (array_elements x w es r Hc (pr_kind _ _ P) J) as (l & El & Fl). destruct (array_elements x' w' es' r' Hc' (pr_kind _ _ P') J') as (l' & El' & Fl').
    exists l, l'. split; [exact El|]. split; [exact El'|].
    inversion Hc as [| | | | |? ? _ Wes|]; subst. inversion Hc' as [| | | | |? ? _ Wes'|]; subst.
    clear - F Fl Fl' Wes Wes'. revert l Fl l' Fl'. induction F as [|e e' es es' E _ IH]; intros l Fl l' Fl';
      inversion Fl as [|? y ? ? Y Fl2]; inversion Fl' as [|? y' ? ? Y' Fl2']; subst; constructor.
    + rewrite (sh_json _ _ Y), (sh_json _ _ Y'). apply oc_render. split; [exact E|].
      inversion Wes as [|? ? We _]; inversion Wes' as [|? ? We' _]; subst. destruct We, We'. auto.
    + inversion Wes; inversion Wes'; subst. auto.
Qed.
Lemma perm_F2 {A B} (P : A -> B -> Prop) l l' : Permutation l l' -> forall r', Forall2 P l' r' -> exists r, Forall2 P l r /\ Permutation r r'.
Proof.
  induction 1 as [|x l l' _ IH|x y l|l l2 l' _ IH1 _ IH2]; intros r' F.
  - inversion F; subst. exists []. split; constructor.
  - inversion F as [|? b ? r1 Hb F1]; subst. destruct (IH _ F1) as (r & Fr & Pr). exists (b :: r). split; constructor; auto.
  - inversion F as [|? b ? r1 Hb F1]; subst. inversion F1 as [|? b2 ? r2 Hb2 F2]; subst. exists (b2 :: b :: r2). split; [repeat constructor; auto|]. apply perm_swap.
  - destruct (IH2 _ F) as (r2 & F2 & P2). destruct (IH1 _ F2) as (r & Fr & Pr). exists r. split; [exact Fr|]. eapply Permutation_trans; eauto.
Qed.
Definition ovisited (a b : value * value) : Prop := v_str (fst a) = v_str (fst b) /\ reordered (v_json (snd a)) (v_json (snd b)).
Lemma visited_mixed ms ms' l l' : Forall2 shm ms ms' -> Forall wf_memb ms -> Forall wf_memb ms' ->
  Forall2 (fun m kv => shows (fst kv) (CStr (m_key m)) /\ shows (snd kv) (m_val m)) ms l ->
  Forall2 (fun m kv => shows (fst kv) (CStr (m_key m)) /\ shows (snd kv) (m_val m)) ms' l' -> Forall2 ovisited l l'.
Proof.
  intros F Wes Wes' Fl Fl'. revert l Fl l' Fl'. induction F as [|e e' es es' (N & E) _ IH]; intros l Fl l' Fl';
    inversion Fl as [|? y ? ? (Y1 & Y2) Fl2]; inversion Fl' as [|? y' ? ? (Y1' & Y2') Fl2']; subst; constructor.
  + split.
    * rewrite (sh_str _ _ Y1), (sh_str _ _ Y1'). cbn [text_of]. rewrite !name_said in N. unfold said in N.
      destruct (unescape_total (quoted (m_key e))) as (u & Eu), (unescape_total (quoted (m_key e'))) as (u' & Eu'). rewrite Eu, Eu' in *. congruence.
    * rewrite (sh_json _ _ Y2), (sh_json _ _ Y2'). apply oc_render. split; [exact E|].
      inversion Wes as [|? ? We _]; inversion Wes' as [|? ? We' _]; subst. destruct We, We'. auto.
  + inversion Wes; inversion Wes'; subst. auto.
Qed.
Theorem reord_object x x' : returned x -> returned x' -> reordered (v_json x) (v_json x') -> v_exists x = true -> v_kind x = KObject ->
  exists l l1 l', v_each x record_args [] = Ok l /\ v_each x' record_args [] = Ok l' /\ Forall2 ovisited l l1 /\ Permutation l1 l'.
Proof.
  intros Hr Hr' H He Hk. destruct H as [E|(t & t' & A & B & S)].
  - destruct (text_decides x x' Hr Hr' He E) as [S _]. destruct (each_returns x record_args []) as (l & El); [intros; eexists; reflexivity|]. exists l, l, l.
    split; [exact El|]. split; [rewrite <- (sa_each _ _ S) by auto; exact El|]. split; [|apply Permutation_refl]. apply F2_refl. intros p. split; auto using reord_refl.
  - destruct (says_presents x t Hr A) as (c & Hc & <- & P). destruct (says_presents x' _ Hr' B) as (c' & Hc' & <- & P').
    rewrite (pr_kind _ _ P) in Hk. destruct c as [ | | | | | |w ms]; try discriminate Hk. apply shc_obj_inv in S as (w' & ms' & -> & F).
    destruct (pr_json _ _ P) as (r & _ & J & _). destruct (pr_json _ _ P') as (r' & _ & J' & _).
    destruct (each_object x w ms r Hc (pr_kind _ _ P) J) as (l & Fl & El). destruct (each_object x' w' ms' r' Hc' (pr_kind _ _ P') J') as (l' & Fl' & El').
    inversion Hc as [| | | | | |? ? _ Wes]; subst. inversion Hc' as [| | | | | |? ? _ Wes']; subst.
    assert (G : exists l1, Forall2 ovisited l l1 /\ Permutation l1 l').
    { destruct F as [F|(ms1 & N & F & Q)].
      - exists l'. split; [|apply Permutation_refl]. exact (visited_mixed _ _ _ _ F Wes Wes' Fl Fl').
      - destruct (perm_F2 _ _ _ Q _ Fl') as (l1 & Fl1 & Pl). exists l1. split; [|exact Pl]. refine (visited_mixed _ _ _ _ F Wes _ Fl Fl1).
        rewrite Forall_forall in *. intros m Hm. apply Wes'. eapply Permutation_in; eauto. }
    destruct G as (l1 & G & Q). exists (rev l), (rev l1), (rev l'). rewrite El, El', !P_Agree.visit_record, !app_nil_r. split; [reflexivity|]. split; [reflexivity|].
    split; [apply F2_rev, G|]. eapply Permutation_trans; [apply Permutation_sym, Permutation_rev|]. eapply Permutation_trans; [exact Q|apply Permutation_rev].
Qed.

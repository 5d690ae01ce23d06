(** Whole paths, queries, modifiers and multipaths do not notice how strings are spelled. *)
From Coq Require Import String Arith Lia List NArith ZArith Bool.
From Verif Require Import P_Base P_Json P_Valid P_ValidSpec P_Str P_Doc P_Each P_LGet P_Value P_GetArr P_Closed P_Eval P_ModDoc P_ModFlat P_ModJoin P_Taken P_GetMod P_Again
  P_Total P_Reach P_Run P_Multi P_Entry P_Laws P_Mixed P_Query P_Truth P_Tree P_Agree P_Said
  M_Base M_Util M_Num M_Scan M_Value M_Valid M_Get S_Json S_Str S_Get S_Path S_Query S_Tree S_Follow S_Mod S_Join S_Multi S_Bad S_Entry S_Run S_Eval S_Api S_Taken S_Same S_Panic S_Truth S_Compose S_Said.
Import ListNotations.
Open Scope list_scope.
Open Scope nat_scope.

Lemma Ok_eq {A} (x y : A) : Ok x = Ok y -> x = y.
Proof. intros [= ->]. reflexivity. Qed.

(* ---------- texts ---------- *)

Lemma says_doc s t : says s t <-> exists w1 c w2, ws w1 /\ wf c /\ ws w2 /\ s = w1 ++ render c ++ w2 /\ cont c = t.
Proof.
  split.
  - intros (u & (w1 & c & w2 & H1 & Hc & H2 & E & <-) & <-). exists w1, c, w2. auto.
  - intros (w1 & c & w2 & H1 & Hc & H2 & E & <-). exists (erase c). split; [exists w1, c, w2; auto|reflexivity].
Qed.
Lemma says_render c w : wf c -> ws w -> says (render c ++ w) (cont c).
Proof. intros Hc Hw. apply says_doc. exists [], c, w. split; [constructor|]. auto. Qed.
Lemma says_reads s t : reads s t -> says s (content t).
Proof. intros H. exists t. auto. Qed.
Lemma same_refl s : same_said s s.
Proof. left. reflexivity. Qed.
Lemma eqc_said c c' w w' : eqc c c' -> ws w -> ws w' -> same_said (render c ++ w) (render c' ++ w').
Proof. intros (E & H & H') W W'. right. exists (cont c). split; [apply says_render; auto|]. rewrite E. apply says_render; auto. Qed.
Lemma eqc_render c c' : eqc c c' -> same_said (render c) (render c').
Proof. intros H. rewrite <- (app_nil_r (render c)), <- (app_nil_r (render c')). apply eqc_said; auto; constructor. Qed.
Lemma said_docs s s' : same_said s s' -> s = s' \/ exists w1 c w2 w1' c' w2',
  s = w1 ++ render c ++ w2 /\ s' = w1' ++ render c' ++ w2' /\ ws w1 /\ ws w2 /\ ws w1' /\ ws w2' /\ eqc c c'.
Proof.
  intros [->|(t & A & B)]; [auto|]. right. apply says_doc in A as (w1 & c & w2 & H1 & Hc & H2 & E & C).
  apply says_doc in B as (w1' & c' & w2' & H1' & Hc' & H2' & E' & C'). exists w1, c, w2, w1', c', w2'. repeat split; auto. congruence.
Qed.
Lemma says_nonempty s t : says s t -> s <> [].
Proof. intros (u & H & _). exact (nonempty_reads s u H). Qed.
Lemma said_exists v v' : same_said (v_json v) (v_json v') -> v_exists v = v_exists v'.
Proof.
  unfold v_exists. intros [->|(t & A & B)]; [reflexivity|]. apply says_nonempty in A. apply says_nonempty in B.
  destruct (v_json v), (v_json v'); congruence.
Qed.
Lemma none_json v : v_exists v = false -> v_json v = [].
Proof. unfold v_exists. destruct (v_json v); congruence. Qed.

(* ---------- components ---------- *)

Lemma q_holds_fun c q a b : q_holds c q a -> q_holds c q b -> a = b.
Proof. intros (v & E & <-) (v' & E' & <-). rewrite E in E'. apply Ok_eq in E'. subst. reflexivity. Qed.

Theorem blind_path ss : steps_ok ss -> ss <> [] -> ~ tilde_after_pretty (dotted (map step_text ss)) ->
  (forall q al, In (Query q al) ss -> blind_query q) -> blind (dotted (map step_text ss)).
Proof.
  intros Hok Hne Hc Hq s s' H. apply said_docs in H as [<-|(w1 & c & w2 & w1' & c' & w2' & -> & -> & H1 & H2 & H1' & H2' & E)].
  - destruct (get_total s _ Hc) as (v & Ev). exists v, v. split; [exact Ev|]. split; [exact Ev|]. apply same_refl.
  - pose proof (meaning0 ss (proj1 Hok) Hc) as M.
    pose proof (get_result _ _ _ ss c w1 w2 M Hok Hne H1 (proj1 (proj2 E))) as A.
    pose proof (get_result _ _ _ ss c' w1' w2' M Hok Hne H1' (proj2 (proj2 E))) as B.
    assert (S : sim (result match0 index0 holds0 ss c) (result match0 index0 holds0 ss c')).
    { apply sim_flat. apply (eval_sim _ _ _ ss); auto. intros q al d d' Hi (Ed & Wd & Wd').
      apply (q_holds_fun d' q); [|apply (mn_holds _ _ _ _ M q al); auto].
      apply (Hq q al Hi d d'); auto. apply (mn_holds _ _ _ _ M q al); auto. }
    destruct (result _ _ _ ss c) as [d|], (result _ _ _ ss c') as [d'|]; try contradiction.
    + destruct A as (v & Ev & Sv), B as (v' & Ev' & Sv'). exists v, v'. split; [exact Ev|]. split; [exact Ev'|].
      rewrite (sh_json _ _ Sv), (sh_json _ _ Sv'). apply eqc_render, S.
    + destruct A as (v & Ev & Sv), B as (v' & Ev' & Sv'). exists v, v'. split; [exact Ev|]. split; [exact Ev'|].
      rewrite (none_json _ Sv), (none_json _ Sv'). apply same_refl.
Qed.

(* ---------- values ---------- *)

Lemma presents_same a b c : same_answers a b -> presents b c -> presents a c.
Proof.
  intros S [P1 P2 (w & Hw & P3 & P4) P5]. constructor.
  - rewrite (sa_exists _ _ S). exact P1.
  - rewrite (sa_kind _ _ S). exact P2.
  - exists w. rewrite (sa_json _ _ S). auto.
  - rewrite (sa_str _ _ S), (sa_json _ _ S). exact P5.
Qed.
Lemma says_presents x t : returned x -> says (v_json x) t -> exists c, wf c /\ cont c = t /\ presents x c.
Proof.
  intros Hr Hs. destruct (parse_again x Hr) as (y & Ey & Sy).
  { apply says_nonempty in Hs. unfold v_exists. destruct (v_json x); congruence. }
  apply says_doc in Hs as (w1 & c & w2 & H1 & Hc & H2 & E & <-). rewrite E, parse_spec in Ey. apply Ok_eq in Ey. subst y.
  exists c. split; [exact Hc|]. split; [reflexivity|]. eapply presents_same; [exact Sy|]. apply parse_presents; auto.
Qed.

(** What values that say the same have in common. *)
Record like (x x' : value) : Prop := mkLike {
  lk_exists : v_exists x = v_exists x';
  lk_kind : v_exists x = true -> v_kind x = v_kind x';
  lk_num : v_exists x = true -> v_kind x = KNumber -> v_json x = v_json x';
  lk_str : v_exists x = true -> v_kind x = KString -> v_str x = v_str x';
}.
Lemma said_like x x' : returned x -> returned x' -> same_said (v_json x) (v_json x') -> like x x'.
Proof.
  intros Hr Hr' H. pose proof (said_exists x x' H) as He. destruct H as [E|(t & A & B)].
  - destruct (v_exists x) eqn:Ex.
    + destruct (text_decides x x' Hr Hr' Ex E) as [S _]. constructor; try congruence; intros.
      * apply (sa_kind _ _ S).
      * apply (sa_str _ _ S).
    + constructor; try congruence.
  - destruct (says_presents x t Hr A) as (c & Hc & <- & P). destruct (says_presents x' _ Hr' B) as (c' & Hc' & E & P').
    constructor; [exact He| | |].
    + intros _. rewrite (pr_kind _ _ P), (pr_kind _ _ P'). destruct c, c'; try discriminate E; reflexivity.
    + intros _ K. rewrite (pr_kind _ _ P) in K. destruct c as [ | | |n| | | ]; try discriminate K. destruct c' as [ | | |n'| | | ]; try discriminate E.
      injection E as ->. destruct (pr_json _ _ P) as (w & _ & -> & Z). destruct (pr_json _ _ P') as (w' & _ & -> & Z').
      rewrite (Z I), (Z' I). reflexivity.
    + intros _ K. rewrite (pr_kind _ _ P) in K. destruct c as [ | | | |b| | ]; try discriminate K. destruct c' as [ | | | |b'| | ]; try discriminate E.
      pose proof (pr_str _ _ P) as Q. pose proof (pr_str _ _ P') as Q'. cbn in Q, Q'. rewrite Q, Q'.
      unfold cont in E. cbn [erase content] in E. injection E as E. unfold said in E.
      destruct (unescape_total (quoted b)) as (u & Eu), (unescape_total (quoted b')) as (u' & Eu'). rewrite Eu, Eu' in *. congruence.
Qed.
Lemma like_sym x x' : like x x' -> like x' x.
Proof.
  intros [A B C D]. constructor; [auto| | |]; intros; symmetry.
  - apply B. congruence.
  - apply C; [congruence|]. rewrite B; congruence.
  - apply D; [congruence|]. rewrite B; congruence.
Qed.
Lemma like_satisfies x x' o r : like x x' -> hd 0%N r <> 126%N -> satisfies x o r -> satisfies x' o r.
Proof.
  intros L Hr H. inversion H; subst.
  - exfalso. apply Hr. reflexivity.
  - eapply sat_string; eauto.
    + rewrite <- (lk_exists _ _ L). auto.
    + rewrite <- (lk_kind _ _ L); auto.
    + rewrite <- (lk_str _ _ L); auto.
  - eapply sat_number; eauto.
    + rewrite <- (lk_exists _ _ L). auto.
    + rewrite <- (lk_kind _ _ L); auto.
    + rewrite <- (lk_num _ _ L); auto.
  - eapply sat_bool; eauto.
    + rewrite <- (lk_exists _ _ L). auto.
    + rewrite <- (lk_kind _ _ L); auto.
Qed.

(* ---------- queries ---------- *)

Definition blind_lhs (l : bytes) : Prop := l = [] \/ blind l /\ ~ escape_in_pretty l.

Lemma valid_one c : wf c -> valid (render c) = Ok true.
Proof. intros H. replace (render c) with ([] ++ render c ++ []) by (cbn [app]; apply app_nil_r). apply P_Tree.valid_render; auto; constructor. Qed.

Lemma shown c : wf c -> exists x, shows x c /\ returned x /\ accessors_return x.
Proof.
  intros Hc. exists (lparse (render c)). assert (E : parse (render c) = Ok (lparse (render c))) by apply parse_spec.
  split; [apply parse_shows, Hc|]. split; [exact (ret_parse _ _ E)|]. exact (parse_accessors _ _ (valid_one c Hc) E).
Qed.
Lemma lhs_like l c c' : blind_lhs l -> eqc c c' -> exists x x', lhs_of c l x /\ lhs_of c' l x' /\ like x x' /\
  accessors_return x /\ accessors_return x'.
Proof.
  intros Hl E. pose proof (eqc_render c c' E) as R. destruct E as (E & Hc & Hc').
  destruct Hl as [->|[Hb Hs]].
  - destruct (shown c Hc) as (x & S & Rx & A), (shown c' Hc') as (x' & S' & Rx' & A'). exists x, x'.
    split; [exact S|]. split; [exact S'|]. split; [|auto]. apply said_like; auto. rewrite (sh_json _ _ S), (sh_json _ _ S'). exact R.
  - destruct l as [|b l].
    + destruct (shown c Hc) as (x & S & Rx & A), (shown c' Hc') as (x' & S' & Rx' & A'). exists x, x'.
      split; [exact S|]. split; [exact S'|]. split; [|auto]. apply said_like; auto. rewrite (sh_json _ _ S), (sh_json _ _ S'). exact R.
    + destruct (Hb _ _ R) as (x & x' & Ex & Ex' & S). exists x, x'. split; [exact Ex|]. split; [exact Ex'|]. split; [|split].
      * apply said_like; auto; eapply ret_get; eassumption.
      * eapply get_accessors; [exact Ex|exact Hs|]. left. apply valid_one, Hc.
      * eapply get_accessors; [exact Ex'|exact Hs|]. left. apply valid_one, Hc'.
Qed.

Theorem blind_compare s0 l s1 o s2 r s3 r1 : blank s0 -> lhs l -> blank s1 -> blank s2 -> blank s3 ->
  blind_lhs l -> trimmed r -> balanced r -> hd 0%N r <> 61%N -> rhs_reads r r1 -> hd 0%N r1 <> 126%N ->
  blind_query (query s0 l s1 o s2 r s3).
Proof.
  intros B0 Hl B1 B2 B3 Hb Ht Hr He Hrr Hn c c' b Hc Hc' E Hq.
  destruct (lhs_like l c c' Hb (conj E (conj Hc Hc'))) as (x & x' & X & X' & L & A & A').
  assert (Q : asks c x (query s0 l s1 o s2 r s3) o r) by (exists s0, l, s1, s2, s3; repeat split; auto; apply Hl).
  assert (Q' : asks c' x' (query s0 l s1 o s2 r s3) o r) by (exists s0, l, s1, s2, s3; repeat split; auto; apply Hl).
  destruct (holds_any c x _ o r r1 Hc Q Ht Hr He Hrr (ar_bool _ A) (ar_str _ A)) as (t & T & I).
  destruct (holds_any c' x' _ o r r1 Hc' Q' Ht Hr He Hrr (ar_bool _ A') (ar_str _ A')) as (t' & T' & I').
  rewrite (q_holds_fun _ _ _ _ Hq T). replace t with t'; [exact T'|]. apply eq_true_iff_eq. rewrite I, I'.
  split; apply like_satisfies; auto using like_sym.
Qed.
Theorem blind_exists s0 l s1 : blank s0 -> lhs l -> blank s1 -> blind_lhs l -> blind_query (s0 ++ l ++ s1).
Proof.
  intros B0 Hl B1 Hb c c' b Hc Hc' E Hq.
  destruct (lhs_like l c c' Hb (conj E (conj Hc Hc'))) as (x & x' & X & X' & L & _).
  assert (Q : asks_exists c x (s0 ++ l ++ s1)) by (exists s0, l, s1; repeat split; auto; apply Hl).
  assert (Q' : asks_exists c' x' (s0 ++ l ++ s1)) by (exists s0, l, s1; repeat split; auto; apply Hl).
  rewrite (q_holds_fun _ _ _ _ Hq (holds_exists_q c x _ Hc Q)), (lk_exists _ _ L). apply holds_exists_q; auto.
Qed.

(* ---------- pipes ---------- *)

Theorem blind_pipe a b : whole a -> blind a -> blind b -> blind (a ++ 124%N :: b).
Proof.
  intros Hw Ha Hb s s' H. destruct (Ha s s' H) as (v & v' & E & E' & S). destruct (Hb _ _ S) as (x & x' & X & X' & T).
  pose proof (pipe_outcome s a b v Hw E) as O. rewrite X in O. apply outcome_ok in O as (y & Y & Sy).
  pose proof (pipe_outcome s' a b v' Hw E') as O. rewrite X' in O. apply outcome_ok in O as (y' & Y' & Sy').
  exists y, y'. split; [exact Y|]. split; [exact Y'|]. rewrite (sa_json _ _ Sy), (sa_json _ _ Sy'). exact T.
Qed.

(* ---------- modifiers ---------- *)

(** A path that does the same on the same text, and makes texts that say the same of
    documents that do. *)
Lemma blind_mod p : ~ tilde_after_pretty p ->
  (forall w1 c w2 w1' c' w2', ws w1 -> ws w2 -> ws w1' -> ws w2' -> eqc c c' ->
    exists r r', txt (w1 ++ render c ++ w2) p r /\ txt (w1' ++ render c' ++ w2') p r' /\ same_said r r') -> blind p.
Proof.
  intros Hc H s s' E. apply said_docs in E as [<-|(w1 & c & w2 & w1' & c' & w2' & -> & -> & H1 & H2 & H1' & H2' & E)].
  - destruct (get_total s p Hc) as (v & Ev). exists v, v. split; [exact Ev|]. split; [exact Ev|]. apply same_refl.
  - destruct (H w1 c w2 w1' c' w2' H1 H2 H1' H2' E) as (r & r' & (v & Ev & <-) & (v' & Ev' & <-) & S). exists v, v'. auto.
Qed.
Lemma calm_plain p : ~ In 92%N p -> ~ tilde_after_pretty p.
Proof. intros H. apply safe_calm, safe_no_escape, H. Qed.

Lemma blind_tidy m : tidy m -> blind m.
Proof.
  intros Hm. apply blind_mod.
  - apply calm_plain. destruct Hm as [<-|[<-|[<-|[<-|[]]]]]; vm_compute; intuition discriminate.
  - intros w1 c w2 w1' c' w2' H1 H2 H1' H2' (E & Hc & Hc').
    destruct (tidy_txt m (w1 ++ render c ++ w2) (erase c) Hm) as (r & T & R); [exists w1, c, w2; auto|].
    destruct (tidy_txt m (w1' ++ render c' ++ w2') (erase c') Hm) as (r' & T' & R'); [exists w1', c', w2'; auto|].
    exists r, r'. split; [exact T|]. split; [exact T'|]. right. exists (cont c). split; [apply says_reads, R|]. rewrite E. apply says_reads, R'.
Qed.

Lemma F2_rev {A B} (P : A -> B -> Prop) l l' : Forall2 P l l' -> Forall2 P (rev l) (rev l').
Proof. induction 1; cbn [rev]; [constructor|]. apply Forall2_app; auto. Qed.
Lemma F2_map {A B C D} (P : C -> D -> Prop) (f : A -> C) (g : B -> D) l l' : Forall2 (fun a b => P (f a) (g b)) l l' -> Forall2 P (map f l) (map g l').
Proof. induction 1; cbn [map]; constructor; auto. Qed.

Lemma reversed_wf c : wf c -> wf (reversed c).
Proof.
  intros H. destruct c as [ | | |n|b|w es|w ms]; try exact H; cbn [reversed]; inversion H; subst; constructor; try constructor.
  - apply Forall_rev. apply Forall_map. eapply Forall_impl; [|eassumption]. intros [a v b] Hi. inversion Hi; subst. constructor; auto; constructor.
  - apply Forall_rev. apply Forall_map. eapply Forall_impl; [|eassumption]. intros [a k b d v e] Hi. inversion Hi; subst. constructor; auto; constructor.
Qed.
Lemma reversed_eqc c c' : eqc c c' -> eqc (reversed c) (reversed c').
Proof.
  intros (E & H & H'). split; [|split; apply reversed_wf; auto].
  destruct c as [ | | |n|b|w es|w ms]; try (destruct c'; try discriminate E; exact E).
  - apply cont_arr_inv in E as (w' & es' & -> & F). cbn [reversed]. rewrite !cont_arr. f_equal. apply Forall2_map_eq, F2_rev, F2_map.
    eapply F2_impl; [|exact F]. intros [? ? ?] [? ? ?] Q. exact Q.
  - apply cont_obj_inv in E as (w' & ms' & -> & F). cbn [reversed]. rewrite !cont_obj. f_equal. apply Forall2_map_eq, F2_rev, F2_map.
    eapply F2_impl; [|exact F]. intros [? ? ? ? ? ?] [? ? ? ? ? ?] [Q1 Q2]. rewrite !name_said in Q1. cbn in *. congruence.
Qed.
Lemma blind_reverse : blind mRev.
Proof.
  apply blind_mod.
  - apply calm_plain. vm_compute. intuition discriminate.
  - intros w1 c w2 w1' c' w2' H1 H2 H1' H2' E. exists (render (reversed c)), (render (reversed c')).
    split; [apply txt_rev; auto; apply E|]. split; [apply txt_rev; auto; apply E|]. apply eqc_render, reversed_eqc, E.
Qed.

Lemma own_said c c' w w' : eqc c c' -> ws w -> ws w' -> same_said (own c w) (own c' w').
Proof. intros E W W'. rewrite !own_doc. cbn [app]. apply eqc_said; auto using ws_own. Qed.

Lemma flat_deep_eqc : forall c c', eqc c c' -> Forall2 eqc (flat_deep c) (flat_deep c').
Proof.
  induction c as [ | | |n|b|w es IH|w ms IH] using cst_ind'; intros c' E.
  1-5,7: destruct c'; try discriminate (proj1 E); cbn [flat_deep]; constructor; [exact E|constructor].
  destruct E as (E & H & H'). apply cont_arr_inv in E as (w' & es' & -> & F). cbn [flat_deep].
  inversion H as [| | | | |? ? _ Wes|]; subst. inversion H' as [| | | | |? ? _ Wes'|]; subst. clear H H'.
  induction F as [|e e' es es' E _ IHF]; [constructor|].
  inversion IH as [|? ? IHe IHes]; subst. inversion Wes as [|? ? We Wr]; subst. inversion Wes' as [|? ? We' Wr']; subst.
  cbn [flat_map]. apply Forall2_app; [|auto]. destruct e as [a v b], e' as [a' v' b']. apply IHe. split; [exact E|]. inversion We; inversion We'; auto.
Qed.
Lemma not_arr c c' : eqc c c' -> (forall w es, c <> CArr w es) -> forall w es, c' <> CArr w es.
Proof. intros (E & _) H w es ->. symmetry in E. apply cont_arr_inv in E as (w' & es' & -> & _). exact (H _ _ eq_refl). Qed.
Lemma blind_deep : blind mDeep.
Proof.
  apply blind_mod.
  - apply calm_plain. vm_compute. intuition discriminate.
  - intros w1 c w2 w1' c' w2' H1 H2 H1' H2' E. destruct (is_array c) as [(w & es & ->)|Ha].
    + pose proof (proj1 E) as E0. apply cont_arr_inv in E0 as (w' & es' & -> & _).
      exists (render (array_of (flat_deep (CArr w es)))), (render (array_of (flat_deep (CArr w' es')))).
      split; [apply deep_txt, md_flatten_deep; auto; apply E|]. split; [apply deep_txt, md_flatten_deep; auto; apply E|].
      apply eqc_render, array_of_sim, flat_deep_eqc, E.
    + exists (own c w2), (own c' w2'). split; [apply deep_txt, md_flatten_other; auto; apply E|].
      split; [apply deep_txt, md_flatten_other; auto; [apply E|exact (not_arr _ _ E Ha)]|]. apply own_said; auto.
Qed.

(* ---------- join ---------- *)

Definition eqm (m m' : memb cst) : Prop := name_of m = name_of m' /\ cont (m_val m) = cont (m_val m').
Lemma named_name m n : named m n <-> name_of m = n.
Proof.
  unfold named, name_of. destruct (unescape_total (quoted (m_key m))) as (t & ->). split; [intros [= ->]; reflexivity|intros ->; reflexivity].
Qed.
Lemma same_name_iff m m' : same_name m m' <-> name_of m = name_of m'.
Proof.
  split.
  - intros (n & A & B). apply named_name in A. apply named_name in B. congruence.
  - intros E. exists (name_of m). rewrite !named_name. auto.
Qed.
Lemma F2_snoc_l {A B} (P : A -> B -> Prop) l x l' : Forall2 P (l ++ [x]) l' -> exists m y, l' = m ++ [y] /\ Forall2 P l m /\ P x y.
Proof.
  intros H. apply Forall2_app_inv_l in H as (m & r & H1 & H2 & ->). inversion H2 as [|? y ? ? Hy Hn]; subst. inversion Hn; subst. eauto.
Qed.
Lemma snoc_nil {A} (l : list A) x : l ++ [x] <> [].
Proof. destruct l; discriminate. Qed.
Lemma firsts_eqm ms fs : firsts ms fs -> forall ms' fs', Forall2 eqm ms ms' -> firsts ms' fs' -> Forall2 (fun a b => name_of a = name_of b) fs fs'.
Proof.
  induction 1 as [|ms fs m Hf IH Hn|ms fs m Hf IH Ho]; intros ms' fs' F G.
  - inversion F; subst. inversion G as [|? ? ? ? ? Q|? ? ? ? ? Q]; subst; [constructor| |]; exfalso; eapply snoc_nil; eauto.
  - apply F2_snoc_l in F as (t & y & -> & F & (En & _)).
    inversion G as [Q|ms1 fs1 m1 G1 N1 Q|ms1 fs1 m1 G1 N1 Q]; subst; [exfalso; eapply snoc_nil; eauto| |]; apply app_inj_tail in Q as [-> ->].
    + apply Forall2_app; [eauto|]. constructor; [exact En|constructor].
    + exfalso. clear - F Hn N1 En. induction F as [|a b ms t (E & _) _ IHF]; [inversion N1|]. inversion Hn as [|? ? Ha Hr]; subst.
      inversion N1 as [? ? S|]; subst; [|auto]. apply Ha. rewrite same_name_iff in *. congruence.
  - apply F2_snoc_l in F as (t & y & -> & F & (En & _)).
    inversion G as [Q|ms1 fs1 m1 G1 N1 Q|ms1 fs1 m1 G1 N1 Q]; subst; [exfalso; eapply snoc_nil; eauto| |]; apply app_inj_tail in Q as [-> ->].
    + exfalso. clear - F Ho N1 En. induction F as [|a b ms t (E & _) _ IHF]; [inversion Ho|]. inversion N1 as [|? ? Ha Hr]; subst.
      inversion Ho as [? ? S|]; subst; [|auto]. apply Ha. rewrite same_name_iff in *. congruence.
    + eauto.
Qed.
Lemma last_eqm ms ms' m m' v v' : Forall2 eqm ms ms' -> name_of m = name_of m' -> last_value ms m v -> last_value ms' m' v' -> cont v = cont v'.
Proof.
  intros F En (a & l & b & -> & Sl & Nb & <-) (a' & l' & b' & -> & Sl' & Nb' & <-).
  rewrite same_name_iff in Sl, Sl'.
  assert (Nb2 : Forall (fun x => name_of x <> name_of m) b) by (eapply Forall_impl; [|exact Nb]; intros x Hx Q; apply Hx, same_name_iff; exact Q).
  assert (Nb2' : Forall (fun x => name_of x <> name_of m) b') by (eapply Forall_impl; [|exact Nb']; intros x Hx Q; apply Hx, same_name_iff; congruence).
  clear Nb Nb'. revert a' F. induction a as [|x a IH]; intros [|y a'] F; cbn [app] in F; inversion F as [|? ? ? ? (E1 & E2) F1]; subst.
  - exact E2.
  - exfalso. clear - Nb2 F1 Sl' En. apply Forall2_app_inv_r in F1 as (p & q & _ & Q & ->). apply Forall_app in Nb2 as [_ N].
    inversion Q as [|? ? ? ? (E & _) _]; subst. inversion N; subst. congruence.
  - exfalso. clear - Nb2' F1 Sl En. apply Forall2_app_inv_l in F1 as (p & q & _ & Q & ->). apply Forall_app in Nb2' as [_ N].
    inversion Q as [|? ? ? ? (E & _) _]; subst. inversion N; subst. congruence.
  - eauto.
Qed.
Lemma merged_eqm ms ms' out out' : Forall2 eqm ms ms' -> merged ms out -> merged ms' out' ->
  cont (CObj [] out) = cont (CObj [] out').
Proof.
  intros F (fs & Hf & G) (fs' & Hf' & G'). pose proof (firsts_eqm _ _ Hf _ _ F Hf') as N. clear Hf Hf'.
  rewrite !cont_obj. f_equal. revert fs' N out' G'. induction G as [|m o fs out (v & Lv & ->) _ IH]; intros fs' N out' G'.
  - inversion N; subst. inversion G'; subst. reflexivity.
  - inversion N as [|? m' ? ? En N1]; subst. inversion G' as [|? ? ? out1 (v' & Lv' & ->) G1]; subst. cbn [map m_key m_val].
    f_equal; [|eauto]. f_equal; [rewrite !name_said in En; exact En|]. eapply last_eqm; eauto.
Qed.
Lemma all_members_eqm es es' : Forall2 (fun e e' => cont (i_val e) = cont (i_val e')) es es' -> Forall2 eqm (all_members es) (all_members es').
Proof.
  unfold all_members. induction 1 as [|e e' es es' E _ IH]; [constructor|]. cbn [flat_map]. apply Forall2_app; [|exact IH].
  destruct (i_val e) as [ | | |n|b|w l|w ms]; try (destruct (i_val e'); try discriminate E; constructor).
  apply cont_obj_inv in E as (w' & ms' & -> & F). exact F.
Qed.
Lemma blind_join : blind mJoin.
Proof.
  apply blind_mod.
  - apply calm_plain. vm_compute. intuition discriminate.
  - intros w1 c w2 w1' c' w2' H1 H2 H1' H2' E. destruct (is_array c) as [(w & es & ->)|Ha].
    + pose proof (proj1 E) as E0. apply cont_arr_inv in E0 as (w' & es' & -> & F).
      assert (D : exists dv, get (arg_text None) s_preserve = Ok dv /\ v_bool dv = Ok false) by (eexists; split; [vm_compute; reflexivity|]; vm_compute; reflexivity).
      destruct D as (dv & D1 & D2).
      destruct (get_join w1 w es w2 None dv H1 (proj1 (proj2 E)) H2 I D1 D2) as (v & out & G & S & W & M).
      destruct (get_join w1' w' es' w2' None dv H1' (proj2 (proj2 E)) H2' I D1 D2) as (v' & out' & G' & S' & W' & M').
      exists (render (CObj [] out)), (render (CObj [] out')).
      split; [exists v; split; [rewrite <- mod_join0; exact G|apply (sh_json _ _ S)]|].
      split; [exists v'; split; [rewrite <- mod_join0; exact G'|apply (sh_json _ _ S')]|].
      apply eqc_render. split; [|split; [exact W|exact W']]. exact (merged_eqm _ _ _ _ (all_members_eqm _ _ F) M M').
    + exists (own c w2), (own c' w2'). split; [apply mod_txt; [reflexivity|apply md_join_other; auto; apply E]|].
      split; [apply mod_txt; [reflexivity|apply md_join_other; auto; [apply E|exact (not_arr _ _ E Ha)]]|]. apply own_said; auto.
Qed.

Theorem blind_modifier m : In m [mThis; mValid; mUgly; mPretty; mRev; mJoin; mDeep] -> blind m.
Proof.
  intros [<-|[<-|[<-|[<-|[<-|[<-|[<-|[]]]]]]]].
  1-4: apply blind_tidy; unfold tidy; cbn [In]; auto.
  - exact blind_reverse.
  - exact blind_join.
  - exact blind_deep.
Qed.

(* ---------- multipaths ---------- *)

Lemma tame_result s p v : valid s = Ok true -> tame p -> get s p = Ok v -> v_exists v = true -> exists c, wf c /\ presents v c.
Proof.
  intros Hv Hp E He. destruct (taken_presents s v Hv (tk_get _ _ _ Hp E)) as [(A & _)|H]; [congruence|exact H].
Qed.
(** The results of the entries: pairs that say the same, each a piece with whitespace behind it. *)
Definition pieces2 (v v' : value) : Prop := v_exists v = v_exists v' /\
  (v_exists v = true -> exists c w c' w', v_json v = render c ++ w /\ v_json v' = render c' ++ w' /\ eqc c c' /\ ws w /\ ws w').
Lemma entry_pieces w1 c w2 w1' c' w2' p : ws w1 -> ws w2 -> ws w1' -> ws w2' -> eqc c c' -> tame p -> blind p ->
  exists v v', get (w1 ++ render c ++ w2) p = Ok v /\ get (w1' ++ render c' ++ w2') p = Ok v' /\ pieces2 v v'.
Proof.
  intros H1 H2 H1' H2' (E & Hc & Hc') Hp Hb.
  assert (S : same_said (w1 ++ render c ++ w2) (w1' ++ render c' ++ w2')).
  { right. exists (cont c). split; apply says_doc; [exists w1, c, w2|exists w1', c', w2']; auto 6. }
  destruct (Hb _ _ S) as (v & v' & Ev & Ev' & Sv). exists v, v'. split; [exact Ev|]. split; [exact Ev'|]. pose proof (said_exists _ _ Sv) as He.
  split; [exact He|]. intros Hx.
  assert (R : returned v) by (eapply ret_get; exact Ev). assert (R' : returned v') by (eapply ret_get; exact Ev').
  assert (T : exists t, says (v_json v) t /\ says (v_json v') t).
  { destruct Sv as [J|T]; [|exact T].
    destruct (tame_result _ p v (P_Tree.valid_render c w1 w2 Hc H1 H2) Hp Ev Hx) as (d & Hd & P).
    destruct (pr_json _ _ P) as (w & Hw & Jw & _). exists (cont d). rewrite <- J, Jw. split; apply says_render; auto. }
  destruct T as (t & A & B). destruct (says_presents v t R A) as (d & Hd & <- & P). destruct (says_presents v' _ R' B) as (d' & Hd' & Ed & P').
  destruct (pr_json _ _ P) as (w & Hw & Jw & _). destruct (pr_json _ _ P') as (w' & Hw' & Jw' & _).
  exists d, w, d', w'. repeat split; auto.
Qed.
Lemma entries_pieces w1 c w2 w1' c' w2' (es : list entry) : ws w1 -> ws w2 -> ws w1' -> ws w2' -> eqc c c' ->
  Forall (fun e => tame (snd e) /\ blind (snd e)) es ->
  exists vs vs', Forall2 (fun e v => get (w1 ++ render c ++ w2) (snd e) = Ok v) es vs /\
    Forall2 (fun e v => get (w1' ++ render c' ++ w2') (snd e) = Ok v) es vs' /\ Forall2 pieces2 vs vs'.
Proof.
  intros H1 H2 H1' H2' E. induction 1 as [|e es (Hp & Hb) _ (vs & vs' & A & B & C)]; [exists [], []; auto|].
  destruct (entry_pieces w1 c w2 w1' c' w2' (snd e) H1 H2 H1' H2' E Hp Hb) as (v & v' & Ev & Ev' & P).
  exists (v :: vs), (v' :: vs'). repeat split; constructor; auto.
Qed.

Lemma array_pieces vs vs' : Forall2 pieces2 vs vs' -> exists l l',
  map v_json (filter v_exists vs) = map rend l /\ map v_json (filter v_exists vs') = map rend l' /\
  Forall2 (fun a b => eqc (fst a) (fst b) /\ ws (snd a) /\ ws (snd b)) l l'.
Proof.
  induction 1 as [|v v' vs vs' (He & Hp) _ (l & l' & A & B & C)]; [exists [], []; auto|]. cbn [filter]. rewrite <- He.
  destruct (v_exists v) eqn:Ex; [|exists l, l'; auto]. destruct (Hp eq_refl) as (c & w & c' & w' & J & J' & E & W & W').
  exists ((c, w) :: l), ((c', w') :: l'). cbn [map]. unfold rend at 1 3. cbn [fst snd]. rewrite A, B, J, J'. split; [reflexivity|]. split; [reflexivity|]. constructor; auto.
Qed.
Lemma array_said l l' : Forall2 (fun a b => eqc (fst a) (fst b) /\ ws (snd a) /\ ws (snd b)) l l' ->
  same_said (render (mkarrw l)) (render (mkarrw l')).
Proof.
  intros H. apply eqc_render. split; [|split; apply wf_mkarrw].
  - unfold mkarrw. rewrite !cont_arr. f_equal. rewrite !map_map. cbn [i_val]. apply Forall2_map_eq. eapply F2_impl; [|exact H]. intros a b Q. apply Q.
  - induction H as [|a b l l' ((_ & X & Y) & Z & _)]; constructor; auto.
  - induction H as [|a b l l' ((_ & X & Y) & _ & Z)]; constructor; auto.
Qed.
Lemma object_pieces ks : forall vs vs', Forall2 pieces2 vs vs' -> exists l l',
  map (fun kv => escape (fst kv) ++ 58%N :: v_json (snd kv)) (filter (fun kv => v_exists (snd kv)) (combine ks vs)) =
    map (fun kv => json_string (fst kv) ++ 58%N :: rend (snd kv)) l /\
  map (fun kv => escape (fst kv) ++ 58%N :: v_json (snd kv)) (filter (fun kv => v_exists (snd kv)) (combine ks vs')) =
    map (fun kv => json_string (fst kv) ++ 58%N :: rend (snd kv)) l' /\
  Forall2 (fun a b => fst a = fst b /\ eqc (fst (snd a)) (fst (snd b)) /\ ws (snd (snd a)) /\ ws (snd (snd b))) l l'.
Proof.
  induction ks as [|k ks IH]; intros vs vs' F; [exists [], []; auto|]. destruct F as [|v v' vs vs' (He & Hp) F]; [exists [], []; auto|].
  destruct (IH vs vs' F) as (l & l' & A & B & C). cbn [combine filter snd]. rewrite <- He.
  destruct (v_exists v) eqn:Ex; [|exists l, l'; auto]. destruct (Hp eq_refl) as (c & w & c' & w' & J & J' & E & W & W').
  exists ((k, (c, w)) :: l), ((k, (c', w')) :: l'). cbn [map]. rewrite A, B. cbn [fst snd]. unfold rend at 1 3. cbn [fst snd]. rewrite J, J'.
  split; [reflexivity|]. split; [reflexivity|]. constructor; auto.
Qed.
Lemma object_said l l' : Forall2 (fun a b => fst a = fst b /\ eqc (fst (snd a)) (fst (snd b)) /\ ws (snd (snd a)) /\ ws (snd (snd b))) l l' ->
  same_said (render (mkobjw l)) (render (mkobjw l')).
Proof.
  intros H. apply eqc_render. split; [|split; apply wf_mkobjw].
  - unfold mkobjw. rewrite !cont_obj. f_equal. rewrite !map_map. cbn [m_key m_val]. apply Forall2_map_eq. eapply F2_impl; [|exact H].
    intros a b (Q1 & (Q2 & _) & _). rewrite Q1, Q2. reflexivity.
  - induction H as [|a b l l' (_ & (_ & X & Y) & Z & _)]; constructor; auto.
  - induction H as [|a b l l' (_ & (_ & X & Y) & _ & Z)]; constructor; auto.
Qed.
Lemma keys_unique (es : list entry) ks ks' : Forall2 entry_key es ks -> Forall2 entry_key es ks' -> ks = ks'.
Proof.
  intros H. revert ks'. induction H as [|e k es ks E _ IH]; intros ks' H'; inversion H' as [|? k' ? ? E' H2]; subst; [reflexivity|].
  f_equal; [|auto]. unfold entry_key in *. destruct (fst e); [congruence|]. eapply path_key_unique; eauto.
Qed.

Lemma no_rest : ~ exists s u, @nil N = s :: u /\ separator s.
Proof. intros (s & u & E & _). discriminate E. Qed.
Theorem blind_array q es : balanced q -> entries q es -> ~ tilde_after_pretty (91%N :: q ++ [93%N]) ->
  Forall (fun e => tame (snd e) /\ blind (snd e)) es -> blind (91%N :: q ++ [93%N]).
Proof.
  intros Hq He Hc Hes. apply blind_mod; [exact Hc|]. intros w1 c w2 w1' c' w2' H1 H2 H1' H2' E.
  destruct (entries_pieces w1 c w2 w1' c' w2' es H1 H2 H1' H2' E Hes) as (vs & vs' & A & B & C).
  pose proof (mu_closed 91%N q [] Hq) as M. change (closing 91%N) with 93%N in M.
  destruct (array_any _ _ q [] es vs M He A) as (v & _ & _ & J & _ & G).
  destruct (array_any _ _ q [] es vs' M He B) as (v' & _ & _ & J' & _ & G').
  destruct (array_pieces vs vs' C) as (l & l' & L & L' & F). rewrite L in J. rewrite L' in J'.
  exists (v_json v), (v_json v'). split; [exists v; split; [exact (G no_rest)|reflexivity]|].
  split; [exists v'; split; [exact (G' no_rest)|reflexivity]|]. rewrite J, J'.
  pose proof (array_said l l' F) as S. rewrite !render_mkarrw in S. exact S.
Qed.
Theorem blind_object q es : balanced q -> entries q es -> ~ tilde_after_pretty (123%N :: q ++ [125%N]) ->
  Forall (fun e => tame (snd e) /\ blind (snd e)) es -> blind (123%N :: q ++ [125%N]).
Proof.
  intros Hq He Hc Hes. apply blind_mod; [exact Hc|]. intros w1 c w2 w1' c' w2' H1 H2 H1' H2' E.
  destruct (entries_pieces w1 c w2 w1' c' w2' es H1 H2 H1' H2' E Hes) as (vs & vs' & A & B & C).
  pose proof (mu_closed 123%N q [] Hq) as M. change (closing 123%N) with 125%N in M.
  destruct (object_any _ _ q [] es vs M He A) as (v & ks & _ & _ & K & J & _ & G).
  destruct (object_any _ _ q [] es vs' M He B) as (v' & ks' & _ & _ & K' & J' & _ & G').
  rewrite <- (keys_unique es ks ks' K K') in J'.
  destruct (object_pieces ks vs vs' C) as (l & l' & L & L' & F). rewrite L in J. rewrite L' in J'.
  exists (v_json v), (v_json v'). split; [exists v; split; [exact (G no_rest)|reflexivity]|].
  split; [exists v'; split; [exact (G' no_rest)|reflexivity]|]. rewrite J, J'.
  pose proof (object_said l l' F) as S. rewrite !render_mkobjw in S. exact S.
Qed.

(* ---------- accessors ---------- *)

Lemma string_text_str v b : presents v (CStr b) -> string_text v = unescape (quoted b).
Proof.
  intros P. pose proof (pr_str _ _ P) as S. pose proof (pr_kind _ _ P) as K. destruct (pr_json _ _ P) as (w & _ & J & Z). rewrite (Z I), app_nil_r in J.
  cbn in S, K, J. unfold v_str in S. rewrite K in S. unfold string_text. destruct (has (v_info v) INFO_ESC); [rewrite J; reflexivity|exact S].
Qed.

Definition visited2 (a b : value * value) : Prop := v_str (fst a) = v_str (fst b) /\ same_said (v_json (snd a)) (v_json (snd b)).
Theorem said_values x x' : returned x -> returned x' -> same_said (v_json x) (v_json x') ->
  v_exists x = v_exists x' /\ (v_exists x = true -> v_kind x = v_kind x').
Proof. intros Hr Hr' H. pose proof (said_like x x' Hr Hr' H) as L. split; apply L. Qed.
Theorem said_scalar x x' : returned x -> returned x' -> same_said (v_json x) (v_json x') -> v_exists x = true ->
  In (v_kind x) [KNull; KTrue; KFalse; KNumber] -> same_answers x x'.
Proof.
  intros Hr Hr' H He Hk. apply (text_decides x x' Hr Hr' He). destruct H as [E|(t & A & B)]; [exact E|].
  destruct (says_presents x t Hr A) as (c & Hc & <- & P). destruct (says_presents x' _ Hr' B) as (c' & Hc' & E & P').
  rewrite (pr_kind _ _ P) in Hk. destruct (pr_json _ _ P) as (w & _ & -> & Z). destruct (pr_json _ _ P') as (w' & _ & -> & Z').
  destruct c; try (cbn in Hk; intuition discriminate); destruct c'; try discriminate E; rewrite (Z I), (Z' I); try reflexivity.
  injection E as ->. reflexivity.
Qed.
Theorem said_string x x' : returned x -> returned x' -> same_said (v_json x) (v_json x') -> v_exists x = true -> v_kind x = KString ->
  v_str x = v_str x' /\ v_f64 x = v_f64 x' /\ v_f32 x = v_f32 x' /\ v_i64 x = v_i64 x' /\ v_u64 x = v_u64 x'.
Proof.
  intros Hr Hr' H He Hk. pose proof (said_like x x' Hr Hr' H) as L. split; [apply L; auto|].
  destruct H as [E|(t & A & B)].
  - destruct (text_decides x x' Hr Hr' He E) as [S _]. repeat split; apply S.
  - destruct (says_presents x t Hr A) as (c & Hc & <- & P). destruct (says_presents x' _ Hr' B) as (c' & Hc' & E & P').
    pose proof (lk_kind _ _ L He) as K'. rewrite Hk in K'. symmetry in K'.
    rewrite (pr_kind _ _ P) in Hk. destruct c as [ | | | |b| | ]; try discriminate Hk. destruct c' as [ | | | |b'| | ]; try discriminate E.
    assert (T : string_text x = string_text x').
    { rewrite (string_text_str x b P), (string_text_str x' b' P'). unfold cont in E. cbn [erase content] in E. injection E as E. unfold said in E.
      destruct (unescape_total (quoted b)) as (u & Eu), (unescape_total (quoted b')) as (u' & Eu'). rewrite Eu, Eu' in *. congruence. }
    pose proof (pr_kind _ _ P) as K. cbn in K.
    assert (F : v_f64 x = v_f64 x') by (unfold v_f64; rewrite K, K', T; reflexivity).
    split; [exact F|]. split; [unfold v_f32; rewrite F; reflexivity|]. split; [unfold v_i64|unfold v_u64]; rewrite K, K', T; reflexivity.
Qed.
Theorem said_array x x' : returned x -> returned x' -> same_said (v_json x) (v_json x') -> v_exists x = true -> v_kind x = KArray ->
  exists l l', v_array x = Ok l /\ v_array x' = Ok l' /\ Forall2 (fun a b => same_said (v_json a) (v_json b)) l l'.
Proof.
  intros Hr Hr' H He Hk. destruct H as [E|(t & A & B)].
  - destruct (text_decides x x' Hr Hr' He E) as [S _]. destruct (array_returns x) as (l & El). exists l, l.
    split; [exact El|]. split; [rewrite <- (sa_array _ _ S); exact El|]. clear. induction l; constructor; auto using same_refl.
  - destruct (says_presents x t Hr A) as (c & Hc & <- & P). destruct (says_presents x' _ Hr' B) as (c' & Hc' & E & P').
    rewrite (pr_kind _ _ P) in Hk. destruct c as [ | | | | |w es| ]; try discriminate Hk. symmetry in E. apply cont_arr_inv in E as (w' & es' & -> & F).
    destruct (pr_json _ _ P) as (r & _ & J & _). destruct (pr_json _ _ P') as (r' & _ & J' & _).
    destruct (array_elements x w es r Hc (pr_kind _ _ P) J) as (l & El & Fl). destruct (array_elements x' w' es' r' Hc' (pr_kind _ _ P') J') as (l' & El' & Fl').
    exists l, l'. split; [exact El|]. split; [exact El'|].
    inversion Hc as [| | | | |? ? _ Wes|]; subst. inversion Hc' as [| | | | |? ? _ Wes'|]; subst.
    clear - F Fl Fl' Wes Wes'. revert l Fl l' Fl'. induction F as [|e e' es es' E _ IH]; intros l Fl l' Fl';
      inversion Fl as [|? y ? ? Y Fl2]; inversion Fl' as [|? y' ? ? Y' Fl2']; subst; constructor.
    + rewrite (sh_json _ _ Y), (sh_json _ _ Y'). apply eqc_render. split; [exact E|].
      inversion Wes as [|? ? We _]; inversion Wes' as [|? ? We' _]; subst. destruct We, We'. auto.
    + inversion Wes; inversion Wes'; subst. auto.
Qed.
Theorem said_object x x' : returned x -> returned x' -> same_said (v_json x) (v_json x') -> v_exists x = true -> v_kind x = KObject ->
  exists l l', v_each x record_args [] = Ok l /\ v_each x' record_args [] = Ok l' /\ Forall2 visited2 l l'.
Proof.
  intros Hr Hr' H He Hk. destruct H as [E|(t & A & B)].
  - destruct (text_decides x x' Hr Hr' He E) as [S _]. destruct (each_returns x record_args []) as (l & El); [intros; eexists; reflexivity|]. exists l, l.
    split; [exact El|]. split; [rewrite <- (sa_each _ _ S) by auto; exact El|]. clear. induction l; constructor; auto. split; auto using same_refl.
  - destruct (says_presents x t Hr A) as (c & Hc & <- & P). destruct (says_presents x' _ Hr' B) as (c' & Hc' & E & P').
    rewrite (pr_kind _ _ P) in Hk. destruct c as [ | | | | | |w ms]; try discriminate Hk. symmetry in E. apply cont_obj_inv in E as (w' & ms' & -> & F).
    destruct (pr_json _ _ P) as (r & _ & J & _). destruct (pr_json _ _ P') as (r' & _ & J' & _).
    destruct (each_object x w ms r Hc (pr_kind _ _ P) J) as (l & Fl & El). destruct (each_object x' w' ms' r' Hc' (pr_kind _ _ P') J') as (l' & Fl' & El').
    exists (rev l), (rev l'). rewrite El, El', !P_Agree.visit_record, !app_nil_r. split; [reflexivity|]. split; [reflexivity|]. apply F2_rev.
    inversion Hc as [| | | | | |? ? _ Wes]; subst. inversion Hc' as [| | | | | |? ? _ Wes']; subst.
    clear - F Fl Fl' Wes Wes'. revert l Fl l' Fl'. induction F as [|e e' es es' (N & E) _ IH]; intros l Fl l' Fl';
      inversion Fl as [|? y ? ? (Y1 & Y2) Fl2]; inversion Fl' as [|? y' ? ? (Y1' & Y2') Fl2']; subst; constructor.
    + split.
      * rewrite (sh_str _ _ Y1), (sh_str _ _ Y1'). cbn [text_of]. rewrite !name_said in N. unfold said in N.
        destruct (unescape_total (quoted (m_key e))) as (u & Eu), (unescape_total (quoted (m_key e'))) as (u' & Eu'). rewrite Eu, Eu' in *. congruence.
      * rewrite (sh_json _ _ Y2), (sh_json _ _ Y2'). apply eqc_render. split; [exact E|].
        inversion Wes as [|? ? We _]; inversion Wes' as [|? ? We' _]; subst. destruct We, We'. auto.
    + inversion Wes; inversion Wes'; subst. auto.
Qed.

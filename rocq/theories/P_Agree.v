(** each and array agree with get. *)
From Coq Require Import String List NArith ZArith.
From Verif Require Import M_Base M_Util M_Num M_Value M_Valid M_Get S_Json S_Get S_Path S_Query S_Num S_Api S_Taken S_Same.
From Verif Require Import P_Base P_Json P_Each P_GetDoc P_GetArr P_Value P_GetMod P_Taken P_Again.
Import ListNotations.
Open Scope list_scope.
Open Scope nat_scope.

Lemma kind_arr c : kind_of c = KArray -> exists w es, c = CArr w es.
Proof. destruct c; try discriminate. eauto. Qed.
Lemma kind_obj c : kind_of c = KObject -> exists w ms, c = CObj w ms.
Proof. destruct c; try discriminate. eauto. Qed.

Lemma vget_like v p y : returned v -> get (v_json v) p = Ok y -> exists z, v_get v p = Ok z /\ same_answers z y.
Proof. intros H E. pose proof (vget_text v p H) as L. rewrite E in L. destruct (v_get v p) as [z|]; [|contradiction]. eauto. Qed.

Lemma shows_same a b c : returned a -> returned b -> shows a c -> shows b c -> same_answers a b.
Proof.
  intros Ha Hb [A1 A2 A3 A4] [B1 B2 B3 B4]. apply (text_decides a b Ha Hb A1). congruence.
Qed.
Lemma F2_nth {A B} (P : A -> B -> Prop) l l' : Forall2 P l l' -> forall n y, nth_error l' n = Some y -> exists x, nth_error l n = Some x /\ P x y.
Proof. induction 1 as [|x y l l' H Hl IH]; intros [|n] z E; try discriminate; cbn in E; [injection E as <-; exists x; auto|apply IH, E]. Qed.

Theorem agree_array s v l : valid s = Ok true -> taken s v -> v_kind v = KArray -> v_array v = Ok l ->
  (exists n, v_get v [0x23%N] = Ok n /\ int_literal (v_json n) (Z.of_nat (length l))) /\
  (forall k i x, digits1 k -> digits_val k = Z.of_nat i -> (Z.of_nat i < 2 ^ 63)%Z -> nth_error l i = Some x ->
     exists y, v_get v k = Ok y /\ same_answers y x) /\
  (forall k i, digits1 k -> digits_val k = Z.of_nat i -> length l <= i -> exists y, v_get v k = Ok y /\ v_exists y = false).
Proof.
  intros Hv Ht Hk Ha. assert (Hret := taken_returned s v Ht).
  destruct (taken_presents s v Hv Ht) as [(X & K & _)|(c & Hc & [P1 P2 (r & Hr & Pj & _) _])]; [congruence|].
  rewrite P2 in Hk. apply kind_arr in Hk as (w & es & ->). cbn [kind_of] in P2.
  destruct (array_elements v w es r Hc P2 Pj) as (vs & E & F). rewrite Ha in E. injection E as <-.
  assert (J : v_json v = [] ++ render (CArr w es) ++ r) by exact Pj.
  assert (L : length l = length es) by (symmetry; exact (F2_length _ _ _ F)).
  split; [|split].
  - destruct (get_count [] w es r ltac:(constructor) Hc) as (n & En & _ & I & _).
    destruct (vget_like v [35%N] n Hret) as (z & Ez & Sz); [rewrite J; exact En|]. exists z. split; [exact Ez|].
    rewrite (sa_json _ _ Sz), L. exact I.
  - intros k i x Hd Hn Hb Hx. destruct (F2_nth _ _ _ F i x Hx) as (e & He & Se).
    destruct (proj1 (get_index [] w es r k i ltac:(constructor) Hc Hd Hn) e He Hb) as (y & Ey & Sy).
    destruct (vget_like v k y Hret) as (z & Ez & Sz); [rewrite J; exact Ey|]. exists z. split; [exact Ez|].
    eapply P_Again.same_trans; [exact Sz|]. apply (shows_same y x (i_val e)); auto; [eapply ret_get; eauto|].
    eapply ret_elem; [exact Hret|exact Ha|]. eapply nth_error_In, Hx.
  - intros k i Hd Hn Hl. destruct (proj2 (get_index [] w es r k i ltac:(constructor) Hc Hd Hn)) as (y & Ey & Sy); [lia|].
    destruct (vget_like v k y Hret) as (z & Ez & Sz); [rewrite J; exact Ey|]. exists z. split; [exact Ez|]. rewrite (sa_exists _ _ Sz). exact Sy.
Qed.

Lemma visit_record l : forall st, visit (fun st (kv : value * value) => record_args st (fst kv) (snd kv)) st l = Ok (rev l ++ st).
Proof.
  induction l as [|[k x] l IH]; intros st; [reflexivity|]. cbn [visit record_args fst snd bind]. rewrite IH. cbn [rev].
  rewrite <- app_assoc. reflexivity.
Qed.
Lemma F2_split_r {A B} (P : A -> B -> Prop) l a y b : Forall2 P l (a ++ y :: b) ->
  exists a' x b', l = a' ++ x :: b' /\ Forall2 P a' a /\ P x y /\ Forall2 P b' b.
Proof.
  intros H. apply Forall2_app_inv_r in H as (a' & l2 & Ha & H2 & ->). inversion H2; subst. exists a', x, l. auto.
Qed.

Theorem agree_object s v l : valid s = Ok true -> taken s v -> v_kind v = KObject -> v_each v record_args [] = Ok (rev l) ->
  (forall a k x b n, l = a ++ (k, x) :: b -> v_str k = Ok n -> ~ In 0x3F%N n -> (forall k' x', In (k', x') a -> v_str k' <> Ok n) ->
     exists y, v_get v (path_escape n) = Ok y /\ same_answers y x) /\
  (forall n, ~ In 0x3F%N n -> (forall k x, In (k, x) l -> v_str k <> Ok n) -> exists y, v_get v (path_escape n) = Ok y /\ v_exists y = false).
Proof.
  intros Hv Ht Hk Ha. assert (Hret := taken_returned s v Ht).
  destruct (taken_presents s v Hv Ht) as [(X & K & _)|(c & Hc & [P1 P2 (r & Hr & Pj & _) _])]; [congruence|].
  rewrite P2 in Hk. apply kind_obj in Hk as (w & ms & ->). cbn [kind_of] in P2.
  destruct (each_object v w ms r Hc P2 Pj) as (kvs & F & E). rewrite (E _ record_args []), visit_record, app_nil_r in Ha.
  injection Ha as Ha. apply (f_equal (@rev _)) in Ha. rewrite !rev_involutive in Ha. subst kvs.
  assert (Ha : v_each v record_args [] = Ok (rev l)) by (rewrite (E _ record_args []), visit_record, app_nil_r; reflexivity).
  assert (J : v_json v = [] ++ render (CObj w ms) ++ r) by exact Pj.
  assert (Nm : forall m kv n, shows (fst kv) (CStr (m_key m)) /\ shows (snd kv) (m_val m) -> (named m n <-> v_str (fst kv) = Ok n)).
  { intros m kv n [[_ _ _ S4] _]. unfold named. rewrite S4. reflexivity. }
  assert (NF : forall (a : list (value * value)) a' n, Forall2 (fun m kv => shows (fst kv) (CStr (m_key m)) /\ shows (snd kv) (m_val m)) a' a ->
     (forall k' x', In (k', x') a -> v_str k' <> Ok n) -> Forall (fun m' => forall n', named m' n' -> ~ n = n') a').
  { intros a a' n H. induction H as [|m kv a' a Hm Hl IH]; intros Hn; constructor.
    - intros n' Hn' <-. apply (Nm m kv n Hm) in Hn'. destruct kv as [k' x']. exact (Hn k' x' (or_introl eq_refl) Hn').
    - apply IH. intros k' x' Hi. apply (Hn k' x'). right. exact Hi. }
  split.
  - intros a k x b n -> Hs Hq Hfirst. destruct (F2_split_r _ _ _ _ _ F) as (a' & m & b' & -> & Fa & Fm & Fb).
    destruct (proj1 (get_escaped [] w (a' ++ m :: b') r n ltac:(constructor) Hc Hq) a' m b' n eq_refl) as (y & Ey & Sy).
    { apply (Nm m (k, x) n Fm), Hs. } { reflexivity. } { exact (NF a a' n Fa Hfirst). }
    destruct (vget_like v (path_escape n) y Hret) as (z & Ez & Sz); [rewrite J; exact Ey|]. exists z. split; [exact Ez|].
    eapply P_Again.same_trans; [exact Sz|]. apply (shows_same y x (m_val m)); [eapply ret_get; eauto| |exact Sy|exact (proj2 Fm)].
    eapply ret_value; [exact Hret|exact Ha|]. apply -> in_rev. apply in_or_app. right. left. reflexivity.
  - intros n Hq Hnone. destruct (proj2 (get_escaped [] w ms r n ltac:(constructor) Hc Hq)) as (y & Ey & Sy); [exact (NF l ms n F Hnone)|].
    destruct (vget_like v (path_escape n) y Hret) as (z & Ez & Sz); [rewrite J; exact Ey|]. exists z. split; [exact Ez|]. rewrite (sa_exists _ _ Sz). exact Sy.
Qed.

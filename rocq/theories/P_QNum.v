(** Queries that compare numbers. *)
From Verif Require Import P_Base M_Util M_Num M_Scan M_Value M_Get P_Num P_LGet P_Parts P_GetArr S_Json S_Get S_Path S_Query S_Num P_Query P_Float.
From Coq Require Import Reals Lra SpecFloat.
From Flocq Require Import Core BinarySingleNaN.
Open Scope nat_scope.

Lemma exp_part_val ex : exp_part ex -> exists x, exp_val ex x.
Proof.
  intros H. inversion H as [|e sg ds He Hs Hd]; subst; [eexists; constructor|].
  destruct Hs as [->|[->| ->]]; eexists; [apply ev_plain|apply ev_plus|apply ev_minus]; auto.
Qed.
Lemma int_part_digits i : int_part i -> digits1 i.
Proof.
  intros H. inversion H as [|d ds Hd Hds]; subst; split; try discriminate; constructor; unfold digit in *; auto; lia.
Qed.
Lemma number_denotes n : number n -> exists m e, denotes n m e.
Proof.
  intros H. inversion H as [sg i f e Hsg Hi Hf He]; subst. destruct (exp_part_val e He) as (x & Hx). apply int_part_digits in Hi.
  assert (Hb : exists neg : bool, sg = if neg then [45%N] else []) by (destruct Hsg; [exists false | exists true]; auto).
  destruct Hb as (neg & ->). inversion Hf as [|ds Hds]; subst.
  - do 2 eexists. apply den_int; eauto.
  - do 2 eexists. apply (den_frac neg i ds e x); eauto.
Qed.

Definition num_byte (c : N) : Prop := digit c \/ In c [43; 45; 46; 69; 101]%N.
Lemma digits_num ds : Forall digit ds -> Forall num_byte ds.
Proof. intros H. eapply Forall_impl; [|exact H]. unfold num_byte. auto. Qed.
Lemma exp_num ex x : exp_val ex x -> Forall num_byte ex.
Proof.
  assert (He : forall e, e = 101%N \/ e = 69%N -> num_byte e) by (intros e [->| ->]; right; cbn; auto 10).
  intros H. inversion H as [|e ds H1 [_ H2]|e ds H1 [_ H2]|e ds H1 [_ H2]]; subst; auto.
  - constructor; auto using digits_num.
  - constructor; auto. constructor; auto using digits_num. right. cbn. auto.
  - constructor; auto. constructor; auto using digits_num. right. cbn. auto.
Qed.
Lemma denotes_num n m e : denotes n m e -> n <> [] /\ Forall num_byte n.
Proof.
  intros H. inversion H as [neg ip ex x [Hn Hip] Hex|neg ip fp ex x [Hn Hip] [_ Hfp] Hex]; subst.
  - split; [destruct ip; [congruence|]; destruct neg; discriminate|].
    apply Forall_app. split; [destruct neg; constructor; auto; right; cbn; auto|].
    apply Forall_app. eauto using digits_num, exp_num.
  - split; [destruct ip; [congruence|]; destruct neg; discriminate|].
    apply Forall_app. split; [destruct neg; constructor; auto; right; cbn; auto|].
    apply Forall_app. split; [eauto using digits_num|]. constructor; [right; cbn; auto|]. apply Forall_app. eauto using digits_num, exp_num.
Qed.
Lemma num_byte_range c : num_byte c -> (43 <= c <= 57 \/ c = 69 \/ c = 101)%N.
Proof. unfold num_byte, digit. cbn [In]. lia. Qed.
Lemma denotes_bare n m e : denotes n m e -> bare n.
Proof.
  intros H. apply denotes_num in H as [Hn H].
  assert (Hh : num_byte (hd 0%N n)) by (destruct n; [congruence|]; inversion H; auto).
  assert (Hl : num_byte (last n 0%N)).
  { destruct (exists_last Hn) as (l & a & ->). rewrite last_last. apply Forall_app in H as [_ H]. inversion H; auto. }
  apply num_byte_range in Hh. apply num_byte_range in Hl.
  split; [right; lia|]. split; [|lia]. clear Hn Hh Hl. induction H as [|c t Hc _ IH]; [constructor|].
  apply num_byte_range in Hc. unfold bracket_open, bracket_close. constructor; auto; unfold bracket_open, bracket_close; lia.
Qed.

Lemma number_compare x o r m e m' e' : v_kind x = KNumber -> denotes (v_json x) m e -> denotes r m' e' -> is_like o = false ->
  exists t, query_compare x (norm_op (op_text o)) r = Ok t /\
    (t = true <-> op_rel Rlt o (f64_val (num_val m e)) (f64_val (num_val m' e'))).
Proof.
  intros Hk Hx Hr Ho. unfold query_compare. rewrite Hk. unfold query_number, v_f64. rewrite Hk. cbn [bind].
  destruct (raw_f64_denotes _ _ _ Hx) as [G1 V1]. destruct (raw_f64_denotes _ _ _ Hr) as [G2 V2]. rewrite <- V1, <- V2.
  destruct o; try discriminate; cbn [op_rel]; (eexists; split; [reflexivity|]).
  - apply good_eqb; auto.
  - apply good_eqb; auto.
  - rewrite negb_true_iff, <- good_eqb by auto. destruct (SFeqb _ _); intuition congruence.
  - apply good_ltb; auto.
  - apply good_leb; auto.
  - apply good_ltb; auto.
  - rewrite good_leb by auto. intuition.
Qed.
Lemma holds_number c x q o r m e m' e' : wf c -> asks c x q o r -> v_exists x = true -> v_kind x = KNumber ->
  denotes (v_json x) m e -> denotes r m' e' -> is_like o = false ->
  exists t, q_holds c q t /\ (t = true <-> op_rel Rlt o (f64_val (num_val m e)) (f64_val (num_val m' e'))).
Proof.
  intros Hc Ha He Hk Hx Hr Ho. destruct (number_compare x o r m e m' e') as (t & Et & Hrel); auto. exists t. split; auto.
  destruct (denotes_bare r m' e' Hr) as (B1 & B2 & B3 & B4 & B5). eapply asks_holds; eauto.
  rewrite (query_matches_eq x o _ r) by auto using query_rhs_bare. exact Et.
Qed.

(* ---------- consequences ---------- *)

Lemma f64_val_le x y : (x <= y)%R -> (f64_val x <= f64_val y)%R.
Proof.
  intros H. unfold f64_val. apply Rle_max_compat_l, Rle_min_compat_l. apply round_le; auto with typeclass_instances.
  apply FLT_exp_valid. reflexivity.
Qed.
Lemma bpow_53 : bpow radix2 53 = IZR (2 ^ 53).
Proof. reflexivity. Qed.
Lemma f64_val_int z : (Z.abs z <= 2 ^ 53)%Z -> f64_val (IZR z) = IZR z.
Proof.
  intros H.
  assert (Hr : rnd64 (IZR z) = IZR z).
  { unfold rnd64. apply round_generic; auto with typeclass_instances.
    assert (Hz : (Z.abs z < 2 ^ 53 \/ z = 2 ^ 53 \/ z = - 2 ^ 53)%Z) by lia. destruct Hz as [Hz|Hz].
    - apply generic_format_FLT. exists (Float radix2 z 0).
      + unfold F2R. cbn. rewrite Rmult_1_r. reflexivity.
      + exact Hz.
      + cbn. lia.
    - destruct Hz as [-> | ->].
      + rewrite <- bpow_53. apply generic_format_FLT_bpow; [reflexivity | lia].
      + change (- 2 ^ 53)%Z with (Z.opp (2 ^ 53)). rewrite opp_IZR. apply generic_format_opp. rewrite <- bpow_53. apply generic_format_FLT_bpow; [reflexivity | lia]. }
  rewrite <- Hr at 2. apply rnd_clamp. rewrite Hr, <- abs_IZR. apply Rle_lt_trans with (IZR (2 ^ 53)); [apply IZR_le; auto|].
  rewrite <- bpow_53. apply bpow_lt. lia.
Qed.
Lemma int_literal_denotes n z : int_literal n z -> denotes n z 0.
Proof.
  intros H. inversion H as [ds Hd|ds Hd]; subst.
  - pose proof (den_int false n [] 0 Hd ev_none) as E. cbn [app signed] in E. rewrite app_nil_r in E. exact E.
  - pose proof (den_int true ds [] 0 Hd ev_none) as E. cbn [app signed] in E. rewrite app_nil_r in E. exact E.
Qed.
Lemma num_val_int z : num_val z 0 = IZR z.
Proof. unfold num_val. cbn. ring. Qed.
Lemma op_rel_IZR o a b : op_rel Rlt o (IZR a) (IZR b) <-> op_rel Z.lt o a b.
Proof.
  assert (H1 : forall a b, (IZR a < IZR b)%R <-> (a < b)%Z) by (intros; split; [apply lt_IZR | apply IZR_lt]).
  assert (H2 : forall a b, IZR a = IZR b <-> a = b) by (intros; split; [apply eq_IZR | intros ->; auto]).
  destruct o; cbn [op_rel]; rewrite ?H1, ?H2; tauto.
Qed.
Lemma holds_int c x q o r z z' : wf c -> asks c x q o r -> v_exists x = true -> v_kind x = KNumber ->
  int_literal (v_json x) z -> int_literal r z' -> (Z.abs z <= 2 ^ 53)%Z -> (Z.abs z' <= 2 ^ 53)%Z -> is_like o = false ->
  exists t, q_holds c q t /\ (t = true <-> op_rel Z.lt o z z').
Proof.
  intros Hc Ha He Hk Hx Hr Hz Hz' Ho.
  destruct (holds_number c x q o r z 0 z' 0) as (t & Ht & Hrel); auto using int_literal_denotes.
  exists t. split; auto. rewrite Hrel, !num_val_int, !f64_val_int by auto. apply op_rel_IZR.
Qed.
(** Numbers out of order never satisfy a strict comparison, nor fail a weak one. *)
Lemma holds_order c x q o r m e m' e' : wf c -> asks c x q o r -> v_exists x = true -> v_kind x = KNumber ->
  denotes (v_json x) m e -> denotes r m' e' ->
  (o = QLe /\ num_val m e <= num_val m' e' \/ o = QGe /\ num_val m' e' <= num_val m e \/
   o = QEq /\ num_val m e = num_val m' e')%R ->
  q_holds c q true.
Proof.
  intros Hc Ha He Hk Hx Hr Ho. destruct (holds_number c x q o r m e m' e') as (t & Ht & Hrel); auto.
  - intuition subst; auto.
  - assert (Et : t = true); [|rewrite <- Et; auto]. apply Hrel.
    destruct Ho as [[-> Ho]|[[-> Ho]|[-> Ho]]]; cbn [op_rel].
    + apply f64_val_le in Ho. lra.
    + apply f64_val_le in Ho. lra.
    + rewrite Ho. reflexivity.
Qed.
Lemma holds_order_not c x q o r m e m' e' : wf c -> asks c x q o r -> v_exists x = true -> v_kind x = KNumber ->
  denotes (v_json x) m e -> denotes r m' e' ->
  (o = QLt /\ num_val m' e' <= num_val m e \/ o = QGt /\ num_val m e <= num_val m' e' \/
   o = QNe /\ num_val m e = num_val m' e')%R ->
  q_holds c q false.
Proof.
  intros Hc Ha He Hk Hx Hr Ho. destruct (holds_number c x q o r m e m' e') as (t & Ht & Hrel); auto.
  - intuition subst; auto.
  - assert (Et : t = false); [|rewrite <- Et; auto]. destruct t; auto. exfalso. pose proof (proj1 Hrel eq_refl) as H. clear Hrel.
    destruct Ho as [[-> Ho]|[[-> Ho]|[-> Ho]]]; cbn [op_rel] in H.
    + apply f64_val_le in Ho. lra.
    + apply f64_val_le in Ho. lra.
    + rewrite Ho in H. congruence.
Qed.

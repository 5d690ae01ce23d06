(** Lemmas about the base definitions: indexing and suffixes. *)
From Coq Require Export ZifyBool ZifyNat ZifyN.
From Verif Require Export M_Base.

Lemma bind_ok {A B} (m : R A) (f : A -> R B) b :
  bind m f = Ok b -> exists a, m = Ok a /\ f a = Ok b.
Proof. destruct m; simpl; intros; [eauto | discriminate]. Qed.

Lemma skipn_cons_nth {A} (l : list A) i c t :
  skipn i l = c :: t -> nth_error l i = Some c.
Proof.
  revert i; induction l as [|a l IH]; intros [|i]; simpl; intros H;
    try discriminate; try (inversion H; reflexivity); auto.
Qed.

Lemma skipn_cons_S {A} (l : list A) i c t :
  skipn i l = c :: t -> skipn (S i) l = t.
Proof.
  revert i; induction l as [|a l IH]; intros [|i]; intros H; simpl in *;
    try discriminate; try (inversion H; reflexivity); try (apply IH; assumption).
Qed.

Lemma skipn_cons_1 {A} (l : list A) i c t :
  skipn i l = c :: t -> skipn (i + 1) l = t.
Proof. rewrite Nat.add_1_r. apply skipn_cons_S. Qed.

Lemma skipn_cons_lt {A} (l : list A) i c t :
  skipn i l = c :: t -> i < length l.
Proof.
  intros H. destruct (le_lt_dec (length l) i); auto.
  rewrite skipn_all2 in H by auto. discriminate.
Qed.

Lemma skipn_nil_ge {A} (l : list A) i : skipn i l = [] -> length l <= i.
Proof.
  intros H. assert (length (skipn i l) = 0) by (rewrite H; reflexivity).
  rewrite skipn_length in *. lia.
Qed.

Lemma skipn_length_eq {A} (l : list A) i t :
  skipn i l = t -> i <= length l -> length l = i + length t.
Proof. intros <- H. rewrite skipn_length. lia. Qed.

Lemma skipn_skipn {A} (x y : nat) (l : list A) : skipn x (skipn y l) = skipn (x + y) l.
Proof.
  revert l; induction y as [|y IH]; intros l.
  - rewrite Nat.add_0_r. reflexivity.
  - rewrite Nat.add_succ_r. destruct l; simpl; [apply skipn_nil | apply IH].
Qed.

Lemma skipn_add {A} (l : list A) i a b :
  skipn i l = a ++ b -> skipn (i + length a) l = b.
Proof.
  intros H. rewrite Nat.add_comm, <- skipn_skipn, H, skipn_app, skipn_all, Nat.sub_diag.
  reflexivity.
Qed.

Lemma skipn_ge_nil {A} (l : list A) i : length l <= i -> skipn i l = [].
Proof. apply skipn_all2. Qed.

Lemma idx_skipn l i c t : skipn i l = c :: t -> idx l i = Ok c.
Proof. intros H. unfold idx. rewrite (skipn_cons_nth _ _ _ _ H). reflexivity. Qed.

Lemma idx_unchecked_skipn l i c t : skipn i l = c :: t -> idx_unchecked l i = Ok c.
Proof. intros H. unfold idx_unchecked. rewrite (skipn_cons_nth _ _ _ _ H). reflexivity. Qed.

Lemma ltb_skipn {A} (l : list A) i c t : skipn i l = c :: t -> (i <? length l) = true.
Proof. intros H. apply Nat.ltb_lt. eapply skipn_cons_lt; eauto. Qed.

Lemma ltb_skipn_nil {A} (l : list A) i : skipn i l = [] -> (i <? length l) = false.
Proof. intros H. apply Nat.ltb_ge. apply skipn_nil_ge; auto. Qed.

Lemma eqb_skipn {A} (l : list A) i c t : skipn i l = c :: t -> (i =? length l) = false.
Proof. intros H. apply Nat.eqb_neq. apply skipn_cons_lt in H. lia. Qed.

Lemma eqb_skipn_nil {A} (l : list A) i :
  skipn i l = [] -> i <= length l -> (i =? length l) = true.
Proof. intros H H1. apply skipn_nil_ge in H. apply Nat.eqb_eq. lia. Qed.

(** The slice from [i] of what stands there. *)
Lemma slice_skipn l i a b : skipn i l = a ++ b -> a <> [] -> slice l i (i + length a) = Ok a.
Proof.
  intros H Ha. unfold slice.
  assert (Hl : i + length a <= length l).
  { destruct (le_lt_dec (length l) i) as [Hge|].
    - rewrite skipn_ge_nil in H by auto.
      symmetry in H. apply app_eq_nil in H. tauto.
    - pose proof (skipn_length i l) as Hs. rewrite H, app_length in Hs. lia. }
  replace (i <=? i + length a) with true by (symmetry; apply Nat.leb_le; lia).
  replace (i + length a <=? length l) with true by (symmetry; apply Nat.leb_le; lia).
  simpl. rewrite Nat.add_comm, Nat.add_sub, H, firstn_app, Nat.sub_diag, firstn_all, firstn_O,
    app_nil_r. reflexivity.
Qed.

Lemma slice_ok l s e : s <= e -> e <= length l -> slice l s e = Ok (firstn (e - s) (skipn s l)).
Proof.
  intros. unfold slice.
  replace (s <=? e) with true by (symmetry; apply Nat.leb_le; lia).
  replace (e <=? length l) with true by (symmetry; apply Nat.leb_le; lia).
  reflexivity.
Qed.

Lemma slice_inv l s e r : slice l s e = Ok r ->
  s <= e /\ e <= length l /\ r = firstn (e - s) (skipn s l) /\ skipn s l = r ++ skipn e l.
Proof.
  unfold slice. destruct (s <=? e) eqn:H1; destruct (e <=? length l) eqn:H2; simpl;
    try discriminate.
  intros [= <-]. apply Nat.leb_le in H1. apply Nat.leb_le in H2.
  repeat split; auto.
  rewrite <- (firstn_skipn (e - s) (skipn s l)) at 1. f_equal.
  rewrite skipn_skipn. f_equal. lia.
Qed.

Lemma slice_from_ok l s : s <= length l -> slice_from l s = Ok (skipn s l).
Proof.
  intros. unfold slice_from. rewrite slice_ok by lia. f_equal.
  apply firstn_all2. rewrite skipn_length. lia.
Qed.

Lemma usub_ok a b : b <= a -> usub a b = Ok (a - b).
Proof. intros. unfold usub. destruct (a <? b) eqn:E; auto. apply Nat.ltb_lt in E. lia. Qed.

Lemma beq_refl a : beq a a = true.
Proof. induction a; simpl; auto. rewrite N.eqb_refl. auto. Qed.

Lemma beq_eq a b : beq a b = true <-> a = b.
Proof.
  revert b; induction a as [|x a IH]; intros [|y b]; simpl; split; intros H; auto; try discriminate.
  - apply andb_true_iff in H as [H1 H2]. apply N.eqb_eq in H1. apply IH in H2. congruence.
  - inversion H; subst. rewrite N.eqb_refl. apply IH. reflexivity.
Qed.

Lemma beq_neq a b : beq a b = false <-> a <> b.
Proof.
  rewrite <- beq_eq. destruct (beq a b); intuition congruence.
Qed.

Lemma bcmp_eq a b : bcmp a b = Eq <-> a = b.
Proof.
  revert b; induction a as [|x a IH]; intros [|y b]; simpl; split; intros H; auto; try discriminate.
  - destruct (N.compare_spec x y); try discriminate. apply IH in H. congruence.
  - inversion H; subst. rewrite N.compare_refl. apply IH. reflexivity.
Qed.

Lemma bcmp_antisym a b : bcmp b a = CompOpp (bcmp a b).
Proof.
  revert b; induction a as [|x a IH]; intros [|y b]; simpl; auto.
  rewrite N.compare_antisym. destruct (N.compare x y); simpl; auto.
Qed.

Lemma bcmp_lt_trans a b c : bcmp a b = Lt -> bcmp b c = Lt -> bcmp a c = Lt.
Proof.
  revert b c; induction a as [|x a IH]; intros [|y b] [|z c]; simpl; auto; try discriminate.
  destruct (N.compare_spec x y) as [->|H1|H1]; destruct (N.compare_spec y z) as [->|H2|H2];
    try discriminate; intros; rewrite ?N.compare_refl; eauto;
    match goal with |- match (?a ?= ?b)%N with _ => _ end = _ =>
      replace (a ?= b)%N with Lt by (symmetry; apply N.compare_lt_iff; lia) end; auto.
Qed.

(** Case analysis on a suffix. *)
Lemma skipn_case {A} (l : list A) i :
  (exists c t, skipn i l = c :: t /\ i < length l) \/ (skipn i l = [] /\ length l <= i).
Proof.
  destruct (skipn i l) as [|c t] eqn:E.
  - right. split; auto. apply skipn_nil_ge; auto.
  - left. exists c, t. split; auto. eapply skipn_cons_lt; eauto.
Qed.

Lemma firstn_length_app {A} (a b : list A) : firstn (length a) (a ++ b) = a.
Proof. rewrite firstn_app, Nat.sub_diag, firstn_all, firstn_O, app_nil_r. reflexivity. Qed.
Lemma skipn_length_app {A} (a b : list A) : skipn (length a) (a ++ b) = b.
Proof. rewrite skipn_app, skipn_all, Nat.sub_diag. reflexivity. Qed.

Ltac cls :=
  repeat match goal with
    | |- context [N.eqb ?a ?b] => destruct (N.eqb_spec a b)
    | |- context [N.leb ?a ?b] => destruct (N.leb_spec a b)
    | |- context [N.ltb ?a ?b] => destruct (N.ltb_spec a b)
    end.

(** Normalise concatenations. *)
Ltac apps := repeat first [ progress rewrite <- !app_assoc | progress cbn [app] ].

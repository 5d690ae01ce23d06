(** pmatch and the glob language. *)
From Verif Require Export P_Utf8.

(** What the matcher implements: bytes, and an escaped question mark is still a
    wildcard. *)
Inductive globm : bytes -> bytes -> Prop :=
| gm_nil : globm [] []
| gm_star0 : forall p s, globm p s -> globm (42%N :: p) s
| gm_star1 : forall p c s, globm (42%N :: p) s -> globm (42%N :: p) (c :: s)
| gm_any : forall p c s, globm p s -> globm (63%N :: p) (c :: s)
| gm_esc_any : forall c p s, globm p s -> globm (92%N :: 63%N :: p) (c :: s)
| gm_esc : forall c p s, globm p s -> globm (92%N :: c :: p) (c :: s)
| gm_lit : forall c p s, c <> 42%N -> c <> 63%N -> c <> 92%N -> globm p s -> globm (c :: p) (c :: s).

Lemma globm_star p s : globm (42%N :: p) s <-> exists a b, s = a ++ b /\ globm p b.
Proof.
  split.
  - intros H. remember (42%N :: p) as q eqn:Eq. induction H; try discriminate.
    + injection Eq as ->. exists [], s. auto.
    + destruct (IHglobm Eq) as (a & b & -> & Hb). exists (c :: a), b. auto.
    + injection Eq as -> ->. congruence.
  - intros (a & b & -> & Hb). induction a; simpl; [apply gm_star0 | apply gm_star1]; auto.
Qed.

Lemma globm_nil s : globm [] s <-> s = [].
Proof. split; [intros H; inversion H; auto | intros ->; constructor]. Qed.

Lemma globm_bs_nil s : ~ globm [92%N] s.
Proof. intros H; inversion H; subst; congruence. Qed.

Lemma pmatch_loop_spec : forall fuel p s, length p + length s < fuel ->
  exists b, pmatch_loop fuel p s = Ok b /\ (b = true <-> globm p s).
Proof.
  induction fuel as [|fuel IH]; intros p s Hf; [lia|].
  cbn [pmatch_loop]. destruct p as [|p0 p1].
  { exists (match s with [] => true | _ => false end). split; auto. rewrite globm_nil.
    destruct s; split; congruence. }
  cbn [length] in Hf.
  destruct (N.eqb_spec p0 92) as [->|N92].
  - destruct p1 as [|q0 q1].
    { exists false. split; auto. split; [discriminate|]. intros H. destruct (globm_bs_nil _ H). }
    destruct s as [|s0 s1].
    { exists false. split; auto. split; [discriminate|]. intros H; inversion H. }
    destruct (negb (q0 =? 63)%N && negb (s0 =? q0)%N) eqn:E.
    + exists false. split; auto. split; [discriminate|]. intros H; inversion H; subst; lia.
    + cbn [length] in Hf. destruct (IH q1 s1) as (b & Hb & Hb2); [lia|]. exists b. split; auto.
      rewrite Hb2. split; intros H.
      * destruct (N.eqb_spec q0 63) as [->|]; [apply gm_esc_any; auto|].
        assert (s0 = q0) as -> by lia. apply gm_esc; auto.
      * inversion H; subst; auto. congruence.
  - destruct (N.eqb_spec p0 42) as [->|N42].
    + destruct p1 as [|p2 p3].
      { exists true. split; auto. split; auto. intros _. apply globm_star.
        exists s, []. rewrite app_nil_r. split; auto. constructor. }
      destruct (N.eqb_spec p2 42) as [->|Np2].
      * destruct (IH (42%N :: p3) s) as (b & Hb & Hb2); [cbn [length] in *; lia|].
        exists b. split; auto. rewrite Hb2. split; [apply gm_star0|].
        rewrite globm_star. intros (a & t & -> & H). apply globm_star in H as (a' & t' & -> & H).
        apply globm_star. exists (a ++ a'), t'. rewrite app_assoc. auto.
      * destruct (IH (p2 :: p3) s) as (b & Hb & Hb2); [cbn [length] in *; lia|].
        rewrite Hb. cbn [bind]. destruct b.
        { exists true. split; auto. split; auto. intros _. apply gm_star0. tauto. }
        destruct s as [|s0 s1].
        { exists false. split; auto. split; [discriminate|]. rewrite globm_star.
          intros (a & t & E & H). symmetry in E. apply app_eq_nil in E as [-> ->]. tauto. }
        destruct (IH (42%N :: p2 :: p3) s1) as (b & Hb' & Hb2'); [cbn [length] in *; lia|].
        exists b. split; auto. rewrite Hb2'. split; [apply gm_star1|].
        intros H; inversion H as [|? ? H'| | | | | ]; subst; auto; try congruence.
        exfalso. apply Hb2 in H'. discriminate.
    + destruct s as [|s0 s1].
      { exists false. split; auto. split; [discriminate|]. intros H; inversion H; subst; congruence. }
      destruct (negb (p0 =? 63)%N && negb (s0 =? p0)%N) eqn:E.
      * exists false. split; auto. split; [discriminate|]. intros H; inversion H; subst; lia.
      * cbn [length] in Hf. destruct (IH p1 s1) as (b & Hb & Hb2); [lia|]. exists b. split; auto.
        rewrite Hb2. split; intros H.
        -- destruct (N.eqb_spec p0 63) as [->|]; [apply gm_any; auto|].
           assert (s0 = p0) as -> by lia. apply gm_lit; auto.
        -- inversion H; subst; auto; congruence.
Qed.

Lemma pmatch_spec p s : exists b, pmatch p s = Ok b /\ (b = true <-> globm p s).
Proof. apply pmatch_loop_spec. lia. Qed.

Lemma globm_byte p s : no_escaped_qm p -> (globm p s <-> glob byte_char p s).
Proof.
  intros Hp. split; intros H.
  - revert Hp. induction H; intros Hp.
    + constructor.
    + apply glob_star0; auto.
    + change (c :: s) with ([c] ++ s). apply glob_star1; auto. exists c; auto.
    + change (c :: s) with ([c] ++ s). apply glob_any; auto. exists c; auto.
    + simpl in Hp. destruct Hp; congruence.
    + simpl in Hp. apply glob_esc. tauto.
    + apply glob_lit; auto. simpl in Hp. replace (c =? 92)%N with false in Hp by lia. auto.
  - revert Hp. induction H; intros Hp.
    + constructor.
    + apply gm_star0; auto.
    + destruct H as (c & ->). apply gm_star1; auto.
    + destruct H as (c & ->). apply gm_any; auto.
    + apply gm_esc. simpl in Hp. tauto.
    + apply gm_lit; auto. simpl in Hp. replace (c =? 92)%N with false in Hp by lia. auto.
Qed.

Lemma ascii_utf8_char c : (c < 128)%N -> utf8_char [c].
Proof.
  intros. exists c. split; [unfold scalar; lia|]. unfold utf8_enc.
  replace (c <? 128)%N with true by lia. reflexivity.
Qed.

Lemma glob_ascii p s : ascii s -> (glob byte_char p s <-> glob utf8_char p s).
Proof.
  intros Hs. split; intros H.
  - revert Hs. induction H; intros Hs.
    + constructor.
    + apply glob_star0; auto.
    + destruct H as (c & ->). inversion Hs; subst. apply glob_star1; auto using ascii_utf8_char.
    + destruct H as (c & ->). inversion Hs; subst. apply glob_any; auto using ascii_utf8_char.
    + inversion Hs; subst. apply glob_esc; auto.
    + inversion Hs; subst. apply glob_lit; auto.
  - assert (G : forall u s, utf8_char u -> ascii (u ++ s) -> byte_char u /\ ascii s).
    { intros u t (v & Hv & ->) Ha. apply Forall_app in Ha as [Ha Ht]. split; auto.
      destruct (utf8_enc_shape v Hv) as (h & tl & E & Hl & _ & Hh). rewrite E in *.
      inversion Ha; subst. unfold tail_len in Hl. replace (h <? 128)%N with true in Hl by lia.
      destruct tl; [|discriminate]. exists h; auto. }
    revert Hs. induction H; intros Hs.
    + constructor.
    + apply glob_star0; auto.
    + apply G in Hs as [Hb Hs]; auto. apply glob_star1; auto.
    + apply G in Hs as [Hb Hs]; auto. apply glob_any; auto.
    + inversion Hs; subst. apply glob_esc; auto.
    + inversion Hs; subst. apply glob_lit; auto.
Qed.

(** Without question marks, the byte matcher is the character matcher. *)
Definition no_qm (p : bytes) : Prop := ~ In 63%N p.

Lemma glob_star_app char p a s : (exists l, Forall char l /\ a = concat l) ->
  glob char p s -> glob char (42%N :: p) (a ++ s).
Proof.
  intros (l & Hl & ->) H. induction Hl; simpl; [apply glob_star0; auto|].
  rewrite <- app_assoc. apply glob_star1; auto.
Qed.

Lemma utf8_chars a : utf8 a -> exists l, Forall utf8_char l /\ a = concat l.
Proof.
  induction 1 as [|u t Hu _ (l & Hl & ->)].
  - exists []. auto.
  - exists (utf8_enc u :: l). split; auto. constructor; auto. exists u; auto.
Qed.

(** Literal high bytes in a pattern. *)
Lemma globm_high a p s : Forall (fun c => (128 <= c)%N) a -> globm (a ++ p) s ->
  exists s', s = a ++ s' /\ globm p s'.
Proof.
  revert s. induction a as [|c a IH]; intros s Ha H; simpl in *; [exists s; auto|].
  inversion Ha as [|c' a' Hc Ha']; subst. inversion H; subst; try lia.
  destruct (IH s0 Ha') as (s' & -> & H'); auto. exists s'. auto.
Qed.
Lemma glob_high char a p s : Forall (fun c => (128 <= c)%N) a -> glob char p s ->
  glob char (a ++ p) (a ++ s).
Proof. induction 1; simpl; auto. intros. apply glob_lit; auto; lia. Qed.

Lemma enc_high_tail u h t : scalar u -> utf8_enc u = h :: t -> Forall (fun c => (128 <= c)%N) t.
Proof.
  intros Hu E. destruct (utf8_enc_shape u Hu) as (h' & t' & E' & _ & Hc & _).
  rewrite E in E'. injection E' as <- <-. eapply Forall_impl; [|exact Hc]. unfold cont. intros; simpl in *; lia.
Qed.
Lemma enc_high u : scalar u -> (128 <= u)%N -> Forall (fun c => (128 <= c)%N) (utf8_enc u).
Proof.
  intros Hs Hu. destruct (utf8_enc_shape u Hs) as (h & t & E & _ & Hc & Hh). rewrite E.
  constructor; [lia|]. eapply Forall_impl; [|exact Hc]. unfold cont. intros; simpl in *; lia.
Qed.
Lemma enc_low u : (u < 128)%N -> utf8_enc u = [u].
Proof. intros. unfold utf8_enc. replace (u <? 128)%N with true by lia. reflexivity. Qed.

(** A nonempty pattern in UTF-8, not starting with a star, only matches at a
    character boundary. *)
Lemma globm_boundary p s : utf8 p -> p <> [] -> hd 0%N p <> 42%N -> ~ In 63%N p -> globm p s -> boundary s.
Proof.
  intros Hp Hne Hst Hq H. destruct H; simpl in *; try congruence; auto; try tauto.
  - inversion Hp as [|u t Hu Ht E].
    destruct (N.lt_ge_cases u 128) as [Hl|Hl].
    + rewrite enc_low in E by auto. injection E as -> ->.
      inversion Ht as [|v t' Hv Ht' E'].
      destruct (utf8_enc_shape v Hv) as (h & tl & Ev & _ & _ & Hh). rewrite Ev in E'.
      injection E' as -> _. unfold cont. lia.
    + pose proof (enc_high u Hu Hl) as Hh. pose proof (utf8_enc_nonnil u Hu) as Hnn.
      destruct (utf8_enc u); [congruence|]. injection E as -> _. inversion Hh; lia.
  - inversion Hp as [|u t Hu Ht E].
    destruct (utf8_enc_shape u Hu) as (h & tl & Ev & _ & _ & Hh). rewrite Ev in E.
    injection E as -> _. unfold cont. lia.
Qed.

Lemma globm_utf8 : forall n p s, length p <= n -> utf8 p -> utf8 s -> no_qm p ->
  globm p s -> glob utf8_char p s.
Proof.
  induction n as [|n IH]; intros p s Hn Hp Hs Hq H.
  { destruct p; [|simpl in Hn; lia]. apply globm_nil in H. subst. constructor. }
  destruct p as [|c p]. { apply globm_nil in H. subst. constructor. }
  assert (Hqp : forall a b, p = a ++ b -> no_qm b).
  { intros a b -> Hin. apply Hq. right. apply in_or_app. auto. }
  assert (Hc63 : c <> 63%N) by (intros ->; apply Hq; left; auto).
  simpl in Hn.
  destruct (N.lt_ge_cases c 128) as [Hlc|Hlc].
  - apply utf8_ascii_cons in Hp as Hp'; auto.
    destruct (N.eq_dec c 42) as [->|N42].
    { apply globm_star in H as (a & b & -> & H).
      destruct p as [|c2 p].
      - apply globm_nil in H. subst b. apply glob_star_app; [|constructor].
        rewrite app_nil_r in Hs. apply utf8_chars; auto.
      - destruct (N.eq_dec c2 42) as [->|N42'].
        + apply glob_star0. apply IH; auto; [cbn [length] in *; lia|eapply (Hqp []); reflexivity|].
          apply globm_star in H as (a' & b' & -> & H). apply globm_star.
          exists (a ++ a'), b'. rewrite app_assoc. auto.
        + assert (Hb : boundary b).
          { apply (globm_boundary (c2 :: p) b); auto; [discriminate|]. eapply (Hqp []); reflexivity. }
          destruct (utf8_cut _ Hs a b eq_refl Hb) as [Ha Hbu].
          apply glob_star_app; [apply utf8_chars; auto|].
          apply IH; auto; [cbn [length] in *; lia|]. eapply (Hqp []); reflexivity. }
    destruct (N.eq_dec c 92) as [->|N92].
    { destruct p as [|c2 p]. { destruct (globm_bs_nil _ H). }
      inversion H; subst; try congruence.
      { exfalso. apply Hq. simpl. auto. }
      inversion Hp' as [|u t Hu Ht E].
      destruct (utf8_enc u) as [|h tl] eqn:Eu; [destruct (utf8_enc_nonnil u Hu Eu)|].
      injection E as -> E. subst p.
      apply glob_esc.
      pose proof (enc_high_tail u c2 tl Hu Eu) as Hh.
      destruct (globm_high tl t s0 Hh) as (s' & -> & H'); auto.
      apply glob_high; auto. apply IH; auto.
      - simpl in Hn. rewrite app_length in Hn. lia.
      - change (c2 :: tl ++ s') with ((c2 :: tl) ++ s') in Hs. rewrite <- Eu in Hs.
        eapply utf8_app_inv_l; [|exact Hs]. rewrite <- (app_nil_r (utf8_enc u)). constructor; auto. constructor.
      - apply (Hqp (c2 :: tl)). reflexivity. }
    inversion H; subst; try congruence. apply glob_lit; auto. apply IH; auto.
    + lia.
    + apply utf8_ascii_cons in Hs; auto.
    + apply (Hqp []). reflexivity.
  - inversion Hp as [|u t Hu Ht E].
    assert (Hh : Forall (fun c => (128 <= c)%N) (utf8_enc u)).
    { destruct (N.lt_ge_cases u 128) as [Hl|Hl]; [|apply enc_high; auto].
      rewrite enc_low in E by auto. injection E as -> _. lia. }
    rewrite <- E in H.
    destruct (globm_high _ t s Hh H) as (s' & -> & H').
    apply glob_high; auto. pose proof (utf8_enc_nonnil u Hu) as Hnn.
    destruct (utf8_enc u) as [|h tl] eqn:Eu; [congruence|]. injection E as -> E. apply IH; auto.
    + subst p. rewrite app_length in Hn. lia.
    + rewrite <- Eu in Hs.
      eapply utf8_app_inv_l; [|exact Hs]. rewrite <- (app_nil_r (utf8_enc u)). constructor; auto. constructor.
    + apply (Hqp tl). auto.
Qed.

Lemma glob_utf8_globm p s : no_qm p -> glob utf8_char p s -> globm p s.
Proof.
  intros Hq H. revert Hq.
  assert (T : forall c (p : bytes), no_qm (c :: p) -> no_qm p) by (intros c q Hn Hi; apply Hn; right; auto).
  induction H; intros Hq.
  - constructor.
  - apply gm_star0; eauto.
  - apply globm_star. specialize (IHglob Hq). apply globm_star in IHglob as (a & b & -> & Hb).
    exists (u ++ a), b. rewrite app_assoc. auto.
  - exfalso. apply Hq. left. auto.
  - apply gm_esc; eauto.
  - apply gm_lit; eauto.
Qed.

Lemma pmatch_glob_bytes p s : no_escaped_qm p ->
  exists b, pmatch p s = Ok b /\ (b = true <-> glob byte_char p s).
Proof.
  intros Hp. destruct (pmatch_spec p s) as (b & H1 & H2). exists b. split; auto.
  rewrite H2. apply globm_byte; auto.
Qed.

(** The documented meaning, on ASCII names or without question marks. *)
Lemma pmatch_glob_doc p s : (no_escaped_qm p /\ ascii s) \/ (no_qm p /\ utf8 p /\ utf8 s) ->
  exists b, pmatch p s = Ok b /\ (b = true <-> glob utf8_char p s).
Proof.
  intros Hp. destruct (pmatch_spec p s) as (b & H1 & H2). exists b. split; auto. rewrite H2.
  destruct Hp as [[Hp Hs]|(Hq & Hp & Hs)].
  - rewrite globm_byte by auto. apply glob_ascii; auto.
  - split; [apply (globm_utf8 (length p)); auto | apply glob_utf8_globm; auto].
Qed.

Lemma pmatch_deviates :
  (exists p s, utf8 p /\ ascii s /\ pmatch p s = Ok true /\ ~ glob utf8_char p s) /\
  (exists p s, no_escaped_qm p /\ utf8 p /\ utf8 s /\ pmatch p s = Ok false /\ glob utf8_char p s).
Proof.
  split.
  - exists [92; 63]%N, [97]%N. repeat split.
    + apply utf8_ascii; repeat (constructor; [lia|]); constructor.
    + repeat (constructor; [lia|]); constructor.
    + intros H. inversion H; subst; congruence.
  - exists [63]%N, (utf8_enc 233 ++ [])%N. repeat split.
    + apply utf8_ascii; repeat (constructor; [lia|]); constructor.
    + constructor; [unfold scalar; lia | constructor].
    + apply glob_any; [|constructor]. exists 233%N. split; auto. unfold scalar; lia.
Qed.

(** The exact language of the matcher. *)
Lemma globm_bare p s : globm p s <-> glob byte_char (bare_qm p) s.
Proof.
  split.
  - intros H. induction H; cbn [bare_qm].
    + constructor.
    + apply glob_star0; auto.
    + change (c :: s) with ([c] ++ s). apply glob_star1; auto. exists c; auto.
    + change (c :: s) with ([c] ++ s). apply glob_any; auto. exists c; auto.
    + change (c :: s) with ([c] ++ s). apply glob_any; auto. exists c; auto.
    + change (92 =? 92)%N with true. cbv iota. destruct (N.eqb_spec c 63) as [->|].
      * change (63%N :: s) with ([63%N] ++ s). apply glob_any; auto. exists 63%N; auto.
      * apply glob_esc; auto.
    + replace (c =? 92)%N with false by lia. apply glob_lit; auto.
  - remember (bare_qm p) as q eqn:Eq. intros H. revert p Eq.
    assert (T : forall p a q, bare_qm p = a :: q -> a <> 92%N ->
      (exists t, p = a :: t /\ bare_qm t = q) \/ (a = 63%N /\ exists t, p = 92%N :: 63%N :: t /\ bare_qm t = q)).
    { intros p a q' E Ha. destruct p as [|c t]; [discriminate|]. cbn [bare_qm] in E.
      destruct (N.eqb_spec c 92) as [->|].
      - destruct t as [|d t]; [injection E; congruence|]. destruct (N.eqb_spec d 63) as [->|]; [|injection E; congruence].
        injection E as <- E. right. eauto.
      - injection E as <- E. left. eauto. }
    induction H as [|q s H IH|q u s Hu H IH|q u s Hu H IH|c q s H IH|c q s H1 H2 H3 H IH]; intros p Eq; symmetry in Eq.
    + destruct p as [|c t]; [constructor|]. cbn [bare_qm] in Eq. destruct (c =? 92)%N; [|discriminate].
      destruct t as [|d t]; [discriminate|]. destruct (d =? 63)%N; discriminate.
    + destruct (T _ _ _ Eq ltac:(discriminate)) as [(t & -> & E)|(E & _)]; [|discriminate]. apply gm_star0; auto.
    + destruct Hu as (c & ->). destruct (T _ _ _ Eq ltac:(discriminate)) as [(t & -> & E)|(E & _)]; [|discriminate].
      apply gm_star1; auto.
    + destruct Hu as (c & ->). destruct (T _ _ _ Eq ltac:(discriminate)) as [(t & -> & E)|(_ & t & -> & E)];
        [apply gm_any; auto | apply gm_esc_any; auto].
    + destruct p as [|x t]; [discriminate|]. cbn [bare_qm] in Eq. destruct (N.eqb_spec x 92) as [->|]; [|injection Eq; congruence].
      destruct t as [|d t]; [discriminate|]. destruct (N.eqb_spec d 63) as [->|]; [discriminate|].
      injection Eq as <- E. apply gm_esc; auto.
    + destruct (T _ _ _ Eq H3) as [(t & -> & E)|(E & _)]; [|congruence]. apply gm_lit; auto.
Qed.
Lemma pmatch_exact p s : exists b, pmatch p s = Ok b /\ (b = true <-> glob byte_char (bare_qm p) s).
Proof. destruct (pmatch_spec p s) as (b & E & H). exists b. split; auto. rewrite H. apply globm_bare. Qed.

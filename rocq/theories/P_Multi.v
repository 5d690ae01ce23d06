(** Multipaths. *)
From Verif Require Import P_Base P_Json P_Valid P_ValidSpec P_Str P_Glob P_Scan P_Each P_Doc P_Path P_LGet P_Parts P_Ext P_Total P_Value P_Num
  P_Key P_Find P_GetDoc P_GetArr P_Stream P_Query P_Closed P_ModFlat
  M_Util M_Num M_Scan M_Value M_Path M_Valid M_Get S_Json S_Get S_Path S_Multi.

(* ---------- the component ---------- *)

Lemma pnext_multi o q c tail s rest : (o = 91 \/ o = 123)%N -> balanced q -> bracket_close c ->
  (tail = [] /\ s = 0%N /\ rest = []) \/ (tail = s :: rest /\ is_sep s = true) ->
  pnext (o :: q ++ c :: tail) = mkPath (o :: q ++ [c]) false false s 0 rest.
Proof.
  intros Ho Hq Hc Ht. unfold pnext, path_next. set (extra := o :: q ++ c :: tail).
  assert (E0 : idx extra 0 = Ok o) by reflexivity.
  assert (El : length extra = S (length q + S (length tail))).
  { unfold extra. cbn [length]. rewrite app_length. reflexivity. }
  replace (0 <? length extra) with true by lia. rewrite E0. cbn [bind].
  change cAT with 64%N. change cHASH with 35%N. change cLBRC with 123%N. change cLBRK with 91%N.
  replace (o =? 64)%N with false by lia. replace (o =? 35)%N with false by lia.
  replace ((o =? 123) || (o =? 91))%N with true by lia.
  unfold path_next_multipath. pose proof (scan_squash_spec extra _ _ (suf_refl extra)) as Hsq.
  rewrite pos_refl in Hsq. rewrite Hsq. clear Hsq. rewrite sq_balanced by auto.
  assert (E : sq false 0 (c :: tail) = Some tail).
  { cbn [sq]. destruct Hc as [->|[->| ->]]; reflexivity. }
  rewrite E. cbn [bind]. assert (Hp : pos extra tail = S (S (length q))) by (unfold pos; rewrite El; lia).
  rewrite Hp.
  assert (Hs : slice extra 0 (S (S (length q))) = Ok (o :: q ++ [c])).
  { pose proof (slice_mid [] (o :: q ++ [c]) tail 0 (S (S (length q))) eq_refl) as H. cbn [app length] in H.
    rewrite <- app_assoc in H. cbn [app] in H. apply H. rewrite app_length. cbn [length]. lia. }
  destruct Ht as [(-> & -> & ->)|(-> & Hsep)].
  - cbn [length] in El. replace (S (S (length q)) =? length extra) with true by lia. cbn [bind]. rewrite Hs. cbn [bind].
    rewrite slice_from_ok by lia. cbn [bind]. rewrite skipn_all. reflexivity.
  - cbn [length] in El. replace (S (S (length q)) =? length extra) with false by lia.
    assert (Ei : idx extra (S (S (length q))) = Ok s).
    { unfold idx, extra. replace (o :: q ++ c :: s :: rest) with ((o :: q ++ [c]) ++ s :: rest) by (cbn [app]; rewrite <- app_assoc; reflexivity).
      rewrite nth_error_app2 by (cbn [length]; rewrite app_length; cbn [length]; lia).
      replace (S (S (length q)) - length (o :: q ++ [c])) with 0 by (cbn [length]; rewrite app_length; cbn [length]; lia). reflexivity. }
    rewrite Ei. cbn [bind]. rewrite Hsep. cbn [bind]. rewrite Hs. cbn [bind].
    rewrite slice_from_ok by lia. cbn [bind]. f_equal.
    unfold extra. replace (o :: q ++ c :: s :: rest) with ((o :: q ++ [c; s]) ++ rest) by (cbn [app]; rewrite <- app_assoc; reflexivity).
    replace (S (S (length q)) + 1) with (length (o :: q ++ [c; s])) by (cbn [length]; rewrite app_length; cbn [length]; lia).
    apply skipn_length_app.
Qed.

(* ---------- the entries ---------- *)

Lemma sp_plain c t : ~ special c -> sub_path t -> sub_path (c :: t).
Proof. intros H Ht. apply pt_plain; auto. left. exact H. Qed.
Lemma plain_spec k c : ordinary k c -> c <> 44%N /\ c <> 34%N /\ c <> 92%N /\ ~ bracket_open c /\ ~ bracket_close c /\ (k = false -> c <> 58%N).
Proof. unfold ordinary, special, bracket_open, bracket_close. intros [H|[-> ->]]; repeat split; try tauto; try lia; discriminate. Qed.
Lemma literal_quotable k b : literal k b -> quotable b.
Proof.
  induction 1; [constructor| |apply qt_esc; auto]. destruct (plain_spec _ _ H) as (_ & H2 & H3 & _). apply qt_char; auto.
Qed.
Lemma part_balanced k p : part k p -> balanced p.
Proof.
  induction 1; [constructor| | | |].
  - destruct (plain_spec _ _ H) as (_ & H2 & H3 & H4 & H5 & _). apply bal_char; auto.
  - apply bal_esc; auto.
  - apply bal_string; eauto using literal_quotable.
  - apply bal_group; auto.
Qed.
Lemma sub_balanced p : sub_path p -> balanced p.
Proof. apply part_balanced. Qed.
Lemma name_balanced p : sub_name p -> balanced p.
Proof. apply part_balanced. Qed.

Lemma plain_named k c : ordinary k c -> ordinary true c.
Proof. intros [H|[_ H]]; [left; exact H | right; auto]. Qed.
Lemma literal_name k b : literal k b -> literal true b.
Proof. induction 1; [apply li_nil | apply li_plain; eauto using plain_named | apply li_esc; auto]. Qed.
Lemma part_name k p : part k p -> sub_name p.
Proof.
  induction 1; [apply pt_nil | apply pt_plain; eauto using plain_named | apply pt_esc; auto | apply pt_quoted; eauto using literal_name | apply pt_group; auto].
Qed.
Definition plainb (k : bool) (c : N) : bool :=
  negb (existsb (N.eqb c) [0x2C; 0x3A; 0x22; 0x5C; 0x28; 0x5B; 0x7B; 0x29; 0x5D; 0x7D]%N) || k && (c =? 58)%N.
Lemma plainb_ok k c : plainb k c = true -> ordinary k c.
Proof.
  unfold plainb, ordinary, special, bracket_open, bracket_close. cbn [existsb]. intros H. apply orb_prop in H as [H|H].
  - left. lia.
  - right. apply andb_prop in H as [-> H]. split; auto. lia.
Qed.
Lemma part_app k a b : part k a -> part k b -> part k (a ++ b).
Proof.
  intros H Hb. induction H; [exact Hb | apply pt_plain; auto | apply pt_esc; auto | rewrite <- app_assoc; apply pt_quoted; auto|].
  cbn [app]. rewrite <- app_assoc. cbn [app]. apply pt_group; auto.
Qed.
Lemma part_plain k t : forallb (plainb k) t = true -> part k t.
Proof.
  induction t as [|c t IH]; intros H; [apply pt_nil|]. cbn [forallb] in H. apply andb_prop in H as [H1 H2]. apply pt_plain; auto using plainb_ok.
Qed.

Lemma entry_balanced e : entry_ok e -> balanced (entry_text e).
Proof.
  destruct e as [[n|] p]; unfold entry_ok, entry_text; cbn [fst snd]; intros [H1 H2]; [|auto using sub_balanced].
  apply balanced_app; [auto using name_balanced|]. apply bal_char; auto using sub_balanced; unfold bracket_open, bracket_close; lia.
Qed.
Lemma entries_balanced es : Forall entry_ok es -> balanced (commas (map entry_text es)).
Proof.
  induction 1 as [|e es He H IH]; [constructor|]. cbn [map]. destruct es as [|e2 es]; [cbn [map commas]; auto using entry_balanced|].
  change (commas (entry_text e :: map entry_text (e2 :: es))) with (entry_text e ++ 44%N :: commas (map entry_text (e2 :: es))).
  apply balanced_app; [auto using entry_balanced|]. apply bal_char; auto; unfold bracket_open, bracket_close; lia.
Qed.

Lemma lcomps_fuel : forall f1 f2 l s co, length l < f1 -> length l < f2 -> lcomps f1 l s co = lcomps f2 l s co.
Proof.
  induction f1 as [|f1 IH]; intros f2 l s co H1 H2; [lia|]. destruct f2 as [|f2]; [lia|]. cbn [lcomps].
  destruct l as [|b t]; auto. cbn [length] in *.
  destruct (b =? 92)%N. { destruct t; auto. cbn [length] in *. apply IH; lia. }
  destruct (_ || _)%N. { pose proof (suf_length _ _ (sq_end_suf t)). apply IH; lia. }
  destruct (b =? 44)%N. { f_equal. apply IH; lia. }
  destruct (b =? 58)%N; apply IH; lia.
Qed.

(** Passing over a part: only colons leave a trace. *)
Definition passed (k : bool) (b : text) : Prop := forall r s co, exists co', (k = false -> co' = co) /\
  forall fuel, length (b ++ r) < fuel -> lcomps fuel (b ++ r) s co = lcomps fuel r s co'.

Lemma passed_nil k : passed k [].
Proof. intros r s co. exists co. auto. Qed.
Lemma passed_app k a b : passed k a -> passed k b -> passed k (a ++ b).
Proof.
  intros Ha Hb r s co. destruct (Ha (b ++ r) s co) as (c1 & K1 & E1). destruct (Hb r s c1) as (c2 & K2 & E2). exists c2. split.
  - intros K. rewrite (K2 K). auto.
  - intros fuel Hf. rewrite <- app_assoc in *. rewrite E1 by exact Hf. apply E2. rewrite app_length in Hf. lia.
Qed.
Lemma passed_plain k c : ordinary k c \/ c = 34%N -> passed k [c].
Proof.
  intros Hc r s co.
  assert (P : c <> 44%N /\ c <> 92%N /\ ~ bracket_open c /\ (k = false -> c <> 58%N)).
  { destruct Hc as [Hc| ->]; [destruct (plain_spec _ _ Hc) as (H1 & H2 & H3 & H4 & _ & H5); auto|]. unfold bracket_open. repeat split; lia. }
  destruct P as (P1 & P2 & P3 & P4). unfold bracket_open in P3. clear Hc.
  destruct (N.eq_dec c 58) as [->|Hn].
  - exists (Some (58%N :: r)). split; [intros K; exfalso; apply (P4 K); reflexivity|]. intros [|fuel] Hf; [lia|].
    change (lcomps (S fuel) ([58%N] ++ r) s co) with (lcomps fuel r s (Some (58%N :: r))). cbn [app length] in Hf. apply lcomps_fuel; lia.
  - exists co. split; auto. intros [|fuel] Hf; [lia|]. cbn [app length] in Hf. cbn [app]. cbn [lcomps].
    replace (c =? 92)%N with false by lia. replace ((c =? 40) || (c =? 91) || (c =? 123))%N with false by lia.
    replace (c =? 44)%N with false by lia. replace (c =? 58)%N with false by lia. apply (lcomps_fuel fuel (S fuel) r s co); lia.
Qed.
Lemma passed_esc k c : passed k [92%N; c].
Proof.
  intros r s co. exists co. split; auto. intros [|fuel] Hf; [lia|]. cbn [app length] in Hf. cbn [app lcomps]. change (92 =? 92)%N with true. cbv iota.
  apply (lcomps_fuel fuel (S fuel) r s co); lia.
Qed.
Lemma passed_literal k b : literal k b -> passed k b.
Proof.
  induction 1; [apply passed_nil| |].
  - apply (passed_app k [c] t); auto. apply passed_plain. auto.
  - apply (passed_app k [92%N; c] t); auto. apply passed_esc.
Qed.
Lemma passed_group k o q c : bracket_open o -> balanced q -> bracket_close c -> passed k (o :: q ++ [c]).
Proof.
  intros Ho Hq Hc r s co. exists co. split; auto. intros [|fuel] Hf; [lia|]. cbn [app] in *. rewrite <- app_assoc in *. cbn [app] in *. cbn [lcomps].
  cbn [length] in Hf. rewrite app_length in Hf. cbn [length] in Hf.
  assert (E : sq_end (q ++ c :: r) = r).
  { unfold sq_end. rewrite sq_balanced by auto. cbn [sq]. destruct Hc as [->|[->| ->]]; reflexivity. }
  rewrite E. replace (o =? 92)%N with false by (destruct Ho as [->|[->| ->]]; reflexivity).
  replace ((o =? 40) || (o =? 91) || (o =? 123))%N with true by (destruct Ho as [->|[->| ->]]; reflexivity).
  apply (lcomps_fuel fuel (S fuel) r s co); lia.
Qed.
Lemma passed_part k p : part k p -> passed k p.
Proof.
  induction 1; [apply passed_nil| | | |].
  - apply (passed_app k [c] t); auto. apply passed_plain. auto.
  - apply (passed_app k [92%N; c] t); auto. apply passed_esc.
  - apply passed_app; auto. unfold quoted. apply (passed_app k [34%N]); [apply passed_plain; auto|].
    apply passed_app; [apply passed_literal; auto | apply passed_plain; auto].
  - replace (o :: q ++ c :: t) with ((o :: q ++ [c]) ++ t) by (cbn [app]; rewrite <- app_assoc; reflexivity).
    apply passed_app; auto. apply passed_group; auto.
Qed.
Lemma lcomps_sub p : sub_path p -> forall fuel r s co, length (p ++ r) < fuel ->
  lcomps fuel (p ++ r) s co = lcomps fuel r s co.
Proof.
  intros Hp fuel r s co Hf. destruct (passed_part false p Hp r s co) as (co' & K & E). rewrite E by exact Hf. rewrite K; auto.
Qed.
Lemma lcomps_name p : sub_name p -> forall fuel r s co, length (p ++ r) < fuel ->
  exists co', lcomps fuel (p ++ r) s co = lcomps fuel r s co'.
Proof.
  intros Hp fuel r s co Hf. destruct (passed_part true p Hp r s co) as (co' & _ & E). exists co'. auto.
Qed.

Definition epair (e : entry) : bytes * bytes := match fst e with Some n => (n, snd e) | None => (keyname (snd e), snd e) end.

Lemma lcomps_entry e r fuel : entry_ok e -> length (entry_text e ++ r) < fuel ->
  exists co, lcomps fuel (entry_text e ++ r) (entry_text e ++ r) None = lcomps fuel r (entry_text e ++ r) co /\
    lpair (entry_text e ++ r) co r = epair e.
Proof.
  destruct e as [[n|] p]; unfold entry_ok, entry_text, epair; cbn [fst snd]; intros [H1 H2] Hf.
  - exists (Some (58%N :: p ++ r)). rewrite <- app_assoc in *. cbn [app] in *. split.
    + destruct (lcomps_name n H1 fuel (58%N :: p ++ r) (n ++ 58%N :: p ++ r) None Hf) as (co' & E). rewrite E.
      rewrite app_length in Hf. cbn [length] in Hf. rewrite app_length in Hf. destruct fuel as [|fuel]; [lia|].
      change (lcomps (S fuel) (58%N :: p ++ r) (n ++ 58%N :: p ++ r) co') with (lcomps fuel (p ++ r) (n ++ 58%N :: p ++ r) (Some (58%N :: p ++ r))).
      rewrite lcomps_sub by (auto; rewrite app_length; lia). apply lcomps_fuel; lia.
    + unfold lpair. cbn [tl]. rewrite !upto_app. reflexivity.
  - exists None. split; [apply lcomps_sub; auto|]. unfold lpair. rewrite upto_app. reflexivity.
Qed.

Lemma comps_entries es : Forall entry_ok es -> es <> [] -> forall fuel, length (commas (map entry_text es)) < fuel ->
  lcomps fuel (commas (map entry_text es)) (commas (map entry_text es)) None = map epair es.
Proof.
  induction 1 as [|e es He H IH]; intros Hn fuel Hf; [congruence|]. destruct es as [|e2 es].
  - cbn [map commas] in *. destruct (lcomps_entry e [] fuel He) as (co & E1 & E2); [rewrite app_nil_r; exact Hf|].
    rewrite app_nil_r in *. rewrite E1. destruct fuel as [|fuel]; [lia|]. cbn [lcomps]. rewrite E2. reflexivity.
  - change (commas (map entry_text (e :: e2 :: es))) with (entry_text e ++ 44%N :: commas (map entry_text (e2 :: es))) in *.
    set (L := commas (map entry_text (e2 :: es))) in *.
    destruct (lcomps_entry e (44%N :: L) fuel He Hf) as (co & E1 & E2). rewrite E1.
    rewrite app_length in Hf. cbn [length] in Hf. destruct fuel as [|fuel]; [lia|].
    change (lcomps (S fuel) (44%N :: L) (entry_text e ++ 44%N :: L) co) with
      (lpair (entry_text e ++ 44%N :: L) co (44%N :: L) :: lcomps fuel L L None).
    rewrite E2. unfold L in *. rewrite IH by (try discriminate; lia). reflexivity.
Qed.

(* ---------- keys ---------- *)

Lemma sep_dec p i : {unescaped_sep p i} + {~ unescaped_sep p i}.
Proof.
  unfold unescaped_sep.
  assert (D : forall (a : option N) b, {a = b} + {a <> b}) by (intros; decide equality; apply N.eq_dec).
  destruct (D (nth_error p i) (Some 46%N)) as [E|E]; [|destruct (D (nth_error p i) (Some 124%N)) as [E'|E']].
  1,2: destruct i as [|j]; [left; split; [auto | intros; discriminate]|];
       destruct (D (nth_error p j) (Some 92%N)) as [Eb|Eb];
       [right; intros [_ H]; apply (H j eq_refl Eb) | left; split; [auto | intros j' Hj; injection Hj as <-; exact Eb]].
  right. intros [[H|H] _]; auto.
Qed.

Lemma last_name_spec p : forall n, n <= length p -> (forall j, n <= j -> ~ unescaped_sep p j) ->
  exists r, name_of_last_loop n p = Ok r /\ last_name p r.
Proof.
  induction n as [|n IH]; intros Hn Hj; cbn [name_of_last_loop].
  - exists p. split; auto. right. split; auto. intros j. apply Hj. lia.
  - destruct (idx_ok p n) as [c Hc]; [lia|]. rewrite Hc. cbn [bind]. unfold idx in Hc.
    destruct (nth_error p n) as [c'|] eqn:En; [|discriminate]. injection Hc as ->.
    assert (Hstep : ~ unescaped_sep p n -> exists r, name_of_last_loop n p = Ok r /\ last_name p r).
    { intros Hu. apply IH; [lia|]. intros j Hjn. destruct (Nat.eq_dec j n) as [->|]; auto. apply Hj. lia. }
    change cPIPE with 124%N. change cDOT with 46%N. change cBSL with 92%N.
    destruct ((c =? 124) || (c =? 46))%N eqn:Ec.
    2: { apply Hstep. intros [[H|H] _]; rewrite En in H; injection H as ->; discriminate. }
    assert (Hyes : unescaped_sep p n -> exists r, slice_from p (n + 1) = Ok r /\ last_name p r).
    { intros Hu. rewrite slice_from_ok by lia. eexists. split; [reflexivity|]. left. exists n. split; auto.
      split; [intros j Hjn; apply Hj; lia|]. f_equal. lia. }
    assert (Hsep : nth_error p n = Some 46%N \/ nth_error p n = Some 124%N).
    { rewrite En. destruct (c =? 124)%N eqn:E1; [right | left]; f_equal; lia. }
    destruct (0 <? n) eqn:E0.
    + destruct n as [|m]; [discriminate|]. replace (S m - 1) with m by lia.
      destruct (idx_ok p m) as [b Hb]; [lia|]. rewrite Hb. cbn [bind]. unfold idx in Hb.
      destruct (nth_error p m) as [b'|] eqn:Em; [|discriminate]. injection Hb as ->.
      destruct (b =? 92)%N eqn:Eb.
      * apply Hstep. intros [_ H]. apply (H m eq_refl). rewrite Em. f_equal. lia.
      * apply Hyes. split; auto. intros j Hjj. injection Hjj as <-. rewrite Em. intros Z. injection Z as ->. discriminate.
    + cbn [bind]. apply Hyes. split; auto. intros j ->. discriminate.
Qed.

Lemma simple_iff n : is_simple_name n = true <-> simple_name n.
Proof.
  unfold is_simple_name, simple_name. rewrite forallb_forall, Forall_forall. unfold bracket_open, bracket_close.
  split; intros H c Hc; specialize (H c Hc); lia.
Qed.

Lemma keyname_spec p : path_key p (keyname p).
Proof.
  destruct (last_name_spec p (length p) (le_n _)) as (r & E & Hr).
  { intros j Hj [[H|H] _]; rewrite (proj2 (nth_error_None p j)) in H by lia; discriminate. }
  unfold keyname, key_for_path, name_of_last. rewrite E. cbn [bind]. exists r. split; auto.
  destruct (is_simple_name r) eqn:Es.
  - left. split; auto. apply simple_iff, Es.
  - right. split; auto. intros H. apply simple_iff in H. congruence.
Qed.
Lemma last_name_unique p a b : last_name p a -> last_name p b -> a = b.
Proof.
  intros [(i & U & L & ->)|[N ->]] [(j & U' & L' & ->)|[N' ->]]; auto.
  - assert (i = j); [|congruence]. destruct (Nat.lt_trichotomy i j) as [H|[H|H]]; auto; exfalso; [apply (L j H U') | apply (L' i H U)].
  - exfalso. apply (N' i U).
  - exfalso. apply (N j U').
Qed.
Lemma path_key_unique p a b : path_key p a -> path_key p b -> a = b.
Proof.
  intros (n & H1 & H2) (m & H3 & H4). rewrite (last_name_unique p m n H3 H1) in H4. destruct H2 as [[? ->]|[? ->]], H4 as [[? ->]|[? ->]]; auto; contradiction.
Qed.

(* ---------- the results ---------- *)

Definition rest_end (tail : text) (s : N) (rest : text) : Prop :=
  (tail = [] /\ s = 0%N /\ rest = []) \/ (tail = s :: rest /\ is_sep s = true).

Lemma multi_arr_run json es vs : Forall2 (fun e v => get json (snd e) = Ok v) es vs -> forall st,
  multi_arr get json (map epair es) st = Ok (fold_left push_elem vs st).
Proof.
  induction 1 as [|e v es vs He H IH]; intros st; auto. cbn [map]. destruct (epair e) as [k p] eqn:Ep.
  assert (p = snd e) as -> by (destruct e as [[n|] q]; injection Ep as _ <-; reflexivity).
  cbn [multi_arr fold_left]. rewrite He. cbn [bind]. apply IH.
Qed.
Lemma multi_obj_run json es vs : Forall2 (fun e v => get json (snd e) = Ok v) es vs -> forall st,
  multi_obj get json (map epair es) st = Ok (fold_left push_memb (combine (map (fun e => fst (epair e)) es) vs) st).
Proof.
  induction 1 as [|e v es vs He H IH]; intros [out n]; auto. cbn [map]. destruct (epair e) as [k p] eqn:Ep.
  assert (p = snd e) as -> by (destruct e as [[m|] q]; injection Ep as _ <-; reflexivity).
  cbn [multi_obj combine fold_left fst]. rewrite He. cbn [bind]. rewrite IH. reflexivity.
Qed.

Lemma idx_end a q z : idx (a :: q ++ [z]) (length (a :: q ++ [z]) - 1) = Ok z.
Proof.
  unfold idx. cbn [length]. rewrite app_length. cbn [length]. replace (S (length q + 1) - 1) with (length (a :: q)) by (cbn [length]; lia).
  change (a :: q ++ [z]) with ((a :: q) ++ [z]). rewrite nth_error_app2 by lia. rewrite Nat.sub_diag. reflexivity.
Qed.

Lemma multi_get json o q c s rest tail : (o = 91 \/ o = 123)%N -> balanced q -> bracket_close c -> rest_end tail s rest ->
  get json (o :: q ++ c :: tail) =
    ('(res, p) <- multi_exec get json (mkPath (o :: q ++ [c]) false false s 0 rest) ;;
     if negb (p_more p) then Ok res else v_get res (p_extra p)).
Proof.
  intros Ho Hq Hc Hr. rewrite get_spec.
  assert (Es : split_lines (o :: q ++ c :: tail) = (false, o :: q ++ c :: tail)).
  { unfold split_lines. destruct (q ++ c :: tail) eqn:E; auto. replace (o =? cDOT)%N with false by (change cDOT with 46%N; lia). reflexivity. }
  rewrite Es. rewrite (pnext_multi o q c tail s rest) by auto.
  unfold lget_first. assert (Em : is_modifier (mkPath (o :: q ++ [c]) false false s 0 rest) = false).
  { unfold is_modifier. cbn [p_comp]. change cAT with 64%N. destruct Ho as [-> | ->]; reflexivity. }
  rewrite Em. assert (Eu : is_multipath (mkPath (o :: q ++ [c]) false false s 0 rest) = true).
  { unfold is_multipath. cbn [p_comp]. destruct Ho as [-> | ->]; reflexivity. }
  rewrite Eu. reflexivity.
Qed.

Definition marr (vs : list value) : value := mkowned (91%N :: commas (map v_json (filter v_exists vs)) ++ [93%N]) INFO_ARRAY None.
Definition mobj (kvs : list (bytes * value)) : value :=
  mkowned (123%N :: commas (map (fun kv => json_string (fst kv) ++ 58%N :: v_json (snd kv)) (filter (fun kv => v_exists (snd kv)) kvs)) ++ [125%N]) INFO_OBJECT None.

Lemma comps_eq o z es : Forall entry_ok es -> es <> [] -> each_comp (o :: commas (map entry_text es) ++ [z]) = Ok (map epair es).
Proof.
  intros H Hn. rewrite each_comp_spec. f_equal. unfold comps. apply comps_entries; auto.
Qed.

Lemma get_multi_array json es vs s rest tail : Forall entry_ok es -> es <> [] ->
  Forall2 (fun e v => get json (snd e) = Ok v) es vs -> rest_end tail s rest ->
  get json (multi_array es ++ tail) = if (s =? 0)%N then Ok (marr vs) else v_get (marr vs) rest.
Proof.
  intros He Hn Hv Hr. unfold multi_array. cbn [app]. rewrite <- app_assoc. cbn [app].
  rewrite (multi_get json 91%N (commas (map entry_text es)) 93%N s rest tail) by (auto using entries_balanced; right; left; reflexivity).
  unfold multi_exec. cbn [p_comp].
  change (idx (91%N :: commas (map entry_text es) ++ [93%N]) 0) with (@Ok N 91%N). cbn [bind].
  rewrite usub_ok by (cbn [length]; lia). cbn [bind]. rewrite idx_end. cbn [bind].
  change (91 =? cLBRK)%N with true. change (negb (93 =? cRBRK)%N) with false. cbv iota. rewrite comps_eq by auto. cbn [bind].
  rewrite (multi_arr_run json es vs Hv). change ([cLBRK], 0) with ([91%N], 0). pose proof (push_list0 vs) as E.
  destruct (fold_left push_elem vs ([91%N], 0)) as [out n]. cbn [bind fst] in *. rewrite json_from_owned_eq. cbn [bind].
  change (out ++ [cRBRK]) with (out ++ [93%N]). rewrite E. fold (marr vs).
  unfold p_more. cbn [p_sep p_extra]. destruct Hr as [(-> & -> & ->)|(-> & Hs)]; [reflexivity|].
  rewrite (is_sep_nz _ Hs). reflexivity.
Qed.

Lemma get_multi_object json es vs s rest tail : Forall entry_ok es -> es <> [] ->
  Forall2 (fun e v => get json (snd e) = Ok v) es vs -> rest_end tail s rest ->
  let v := mobj (combine (map (fun e => fst (epair e)) es) vs) in
  get json (multi_object es ++ tail) = if (s =? 0)%N then Ok v else v_get v rest.
Proof.
  intros He Hn Hv Hr v. unfold multi_object. cbn [app]. rewrite <- app_assoc. cbn [app].
  rewrite (multi_get json 123%N (commas (map entry_text es)) 125%N s rest tail) by (auto using entries_balanced; right; right; reflexivity).
  unfold multi_exec. cbn [p_comp].
  change (idx (123%N :: commas (map entry_text es) ++ [125%N]) 0) with (@Ok N 123%N). cbn [bind].
  rewrite usub_ok by (cbn [length]; lia). cbn [bind]. rewrite idx_end. cbn [bind].
  change (123 =? cLBRK)%N with false. change ((123 =? cLBRC)%N && negb (125 =? cRBRC)%N) with false. cbv iota. rewrite comps_eq by auto. cbn [bind].
  rewrite (multi_obj_run json es vs Hv). change ([cLBRC], 0) with ([123%N], 0).
  pose proof (push_membs0 (combine (map (fun e => fst (epair e)) es) vs)) as E.
  destruct (fold_left push_memb _ ([123%N], 0)) as [out n]. cbn [bind fst] in *. rewrite json_from_owned_eq. cbn [bind].
  change (out ++ [cRBRC]) with (out ++ [125%N]). rewrite E. fold (mobj (combine (map (fun e => fst (epair e)) es) vs)). fold v.
  unfold p_more. cbn [p_sep p_extra]. destruct Hr as [(-> & -> & ->)|(-> & Hs)]; [reflexivity|].
  rewrite (is_sep_nz _ Hs). reflexivity.
Qed.

Lemma epair_key e : entry_key e (fst (epair e)).
Proof. destruct e as [[n|] p]; unfold entry_key, epair; cbn [fst snd]; auto. apply keyname_spec. Qed.

(** The pipe behind components, modifiers and multipaths joined by dots. *)
From Verif Require Import P_Base P_Valid P_Str P_Glob P_Scan P_Each P_Path P_LGet P_Parts P_Ext P_Key P_Find P_GetArr P_Pipe P_Mod P_Multi P_Compose
  M_Util M_Num M_Scan M_Value M_Path M_Get S_Json S_Path S_Mod S_Multi S_Compose.

Lemma stage_next m tail s rest : stage m -> rest_end tail s rest ->
  p_comp (pnext (m ++ tail)) = m /\ p_sep (pnext (m ++ tail)) = s /\ p_extra (pnext (m ++ tail)) = rest.
Proof.
  intros Hm Ht. destruct Hm as [name arg Hn Ha|q Hq|q Hq].
  - assert (Hr : rest_ok tail) by (destruct Ht as [(-> & _)|(-> & Hs)]; [exact I | exact Hs]).
    destruct (modifier_pnext name arg tail Hn Ha Hr) as (pat & ->). cbn [p_comp p_sep p_extra].
    split; auto. destruct Ht as [(-> & -> & ->)|(-> & Hs)]; split; reflexivity.
  - cbn [app]. rewrite <- app_assoc. cbn [app].
    rewrite (pnext_multi 91%N q 93%N tail s rest) by (auto; right; left; reflexivity). auto.
  - cbn [app]. rewrite <- app_assoc. cbn [app].
    rewrite (pnext_multi 123%N q 125%N tail s rest) by (auto; right; right; reflexivity). auto.
Qed.
Lemma stage_head m : stage m -> exists c t, m = c :: t /\ (c = 64 \/ c = 91 \/ c = 123)%N.
Proof. intros [name arg _ _|q _|q _]; do 2 eexists; (split; [reflexivity|]); auto. Qed.

(** The next component of a path of pieces. *)
Lemma piece_next k tail s rest : piece k -> rest_end tail s rest ->
  p_comp (pnext (k ++ tail)) = k /\ p_sep (pnext (k ++ tail)) = s /\ p_extra (pnext (k ++ tail)) = rest.
Proof.
  intros [Hk|Hk] Ht; [|apply stage_next; auto].
  destruct Ht as [(-> & -> & ->)|(-> & Hs)].
  - rewrite app_nil_r, pnext_any_end by auto. repeat split.
  - rewrite pnext_any_sep by auto. repeat split.
Qed.
Lemma end_rest : rest_end [] 0 [].
Proof. left. auto. Qed.
Lemma sep_rest s rest : is_sep s = true -> rest_end (s :: rest) s rest.
Proof. right. auto. Qed.

Lemma group_pieces ks tail s rest : Forall piece ks -> ks <> [] -> rest_end tail s rest -> s <> 46%N ->
  exists r, group (dotted ks ++ tail) = (dotted ks, r) /\ p_sep r = s /\ p_extra r = rest.
Proof.
  induction 1 as [|k ks Hk Hks IH]; intros Hn Ht Hs; [congruence|]. rewrite group_eq. cbv zeta.
  destruct ks as [|k2 ks].
  - cbn [dotted]. destruct (piece_next k tail s rest Hk Ht) as (H1 & H2 & H3).
    rewrite H2. replace (s =? 46)%N with false by lia. rewrite H1. eauto.
  - rewrite dotted_cons by discriminate. rewrite <- app_assoc, <- app_comm_cons.
    destruct (piece_next k (46%N :: dotted (k2 :: ks) ++ tail) 46%N _ Hk (sep_rest 46%N _ eq_refl)) as (H1 & H2 & H3).
    rewrite H2. cbn [N.eqb Pos.eqb]. rewrite H1, H3.
    destruct IH as (r & -> & Hr); [discriminate|auto|auto|]. eauto.
Qed.

(** What is left of the path. *)
Definition leftm (n : nat) (B : bytes) (p q : path) : Prop :=
  (p_more p = false /\ p_more q = true /\ p_extra q = B) \/
  (p_more p = true /\ p_more q = true /\
   exists ks, Forall piece ks /\ ks <> [] /\ length ks < n /\ p_extra p = dotted ks /\ p_extra q = dotted ks ++ 124%N :: B).
Definition resm (n : nat) (B : bytes) (a b : R (value * path)) : Prop :=
  match a, b with
  | Ok (v1, p1), Ok (v2, p2) => v1 = v2 /\ leftm n B p1 p2
  | Err e1, Err e2 => e1 = e2
  | _, _ => False
  end.

(** The paths read from the pieces alone and with the pipe. *)
Definition pair_at (n : nat) (B k : bytes) (ks : list bytes) (p q : path) : Prop :=
  p_comp p = k /\ p_comp q = k /\ leftm n B p q /\
  (p_sep q =? 46)%N = (p_sep p =? 46)%N /\
  (exists g r1 r2, next_group p = Ok (g, r1) /\ next_group q = Ok (g, r2) /\ leftm n B r1 r2).

Lemma pair_pieces n B k ks : piece k -> Forall piece ks -> length ks < n ->
  pair_at n B k ks (pnext (dotted (k :: ks))) (pnext (dotted (k :: ks) ++ 124%N :: B)).
Proof.
  intros Hk Hks Hn. unfold pair_at. rewrite !next_group_spec. destruct ks as [|k2 ks].
  - cbn [dotted]. destruct (piece_next k [] 0%N [] Hk end_rest) as (H1 & H2 & H3). rewrite app_nil_r in *.
    destruct (piece_next k (124%N :: B) 124%N B Hk (sep_rest 124%N B eq_refl)) as (G1 & G2 & G3).
    assert (HL : leftm n B (pnext k) (pnext (k ++ 124%N :: B))).
    { left. unfold p_more. rewrite H2, G2. auto. }
    split; auto. split; auto. split; auto. rewrite H2, G2. split; auto. cbn [N.eqb Pos.eqb].
    do 3 eexists. split; [reflexivity|]. split; [reflexivity|]. exact HL.
  - rewrite dotted_cons by discriminate. set (D := dotted (k2 :: ks)).
    destruct (piece_next k (46%N :: D) 46%N D Hk (sep_rest 46%N D eq_refl)) as (H1 & H2 & H3).
    rewrite <- app_assoc, <- app_comm_cons.
    destruct (piece_next k (46%N :: D ++ 124%N :: B) 46%N _ Hk (sep_rest 46%N _ eq_refl)) as (G1 & G2 & G3).
    split; auto. split; auto. split.
    { right. unfold p_more. rewrite H2, G2, H3, G3. split; auto. split; auto. exists (k2 :: ks). repeat split; auto. discriminate. }
    rewrite H2, G2. split; auto. cbn [N.eqb Pos.eqb]. rewrite H3, G3.
    destruct (group_pieces (k2 :: ks) [] 0%N [] Hks ltac:(discriminate) end_rest ltac:(discriminate)) as (r1 & E1 & S1 & _).
    destruct (group_pieces (k2 :: ks) (124%N :: B) 124%N B Hks ltac:(discriminate) (sep_rest 124%N B eq_refl) ltac:(discriminate)) as (r2 & E2 & S2 & X2).
    rewrite app_nil_r in E1. fold D in E1, E2. rewrite E1, E2. do 3 eexists. split; [reflexivity|]. split; [reflexivity|].
    left. unfold p_more. rewrite S1, S2. auto.
Qed.

Lemma larr_pair n g B json lines l k ks p q : pair_at n B k ks p q -> resm n B (larr g json lines l p) (larr g json lines l q).
Proof.
  intros (H1 & H2 & HL & HS & gr & r1 & r2 & E1 & E2 & HR). unfold larr. cbv zeta. rewrite H1, H2, HS, E1, E2. cbn [bind].
  destruct k as [|c t]; [split; auto|].
  destruct (c =? 35)%N; [|split; auto].
  destruct t as [|c2 t].
  { destruct (p_sep p =? 46)%N; [|split; auto].
    match goal with |- resm _ _ (bind ?m _) _ => destruct m as [st|e]; cbn [bind] end; [split; auto | reflexivity]. }
  destruct (last (c2 :: t) 0 =? 35)%N.
  - destruct (query_parts (c :: c2 :: t)) as [((lh, op), rh)|]; cbn [bind]; [|reflexivity].
    match goal with |- resm _ _ (bind ?m _) _ => destruct m as [st|e]; cbn [bind] end; [split; auto | reflexivity].
  - destruct (query_parts (c :: c2 :: t)) as [((lh, op), rh)|]; cbn [bind]; [|reflexivity].
    match goal with |- resm _ _ (bind ?m _) _ => destruct m as [st|e]; cbn [bind] end; [split; auto | reflexivity].
Qed.

Definition subm (n : nat) (B : bytes) (a b : R ldescent) : Prop :=
  match a, b with
  | Ok (LReturn v1 p1), Ok (LReturn v2 p2) => v1 = v2 /\ leftm n B p1 p2
  | Ok LSquash, Ok LSquash => True
  | Ok LNone, Ok LNone => True
  | Err e1, Err e2 => e1 = e2
  | _, _ => False
  end.

Lemma lobj_loop_m n B s1 s2 json p q : (forall b, kmatch q b = kmatch p b) -> leftm n B p q -> (p_sep q =? 46)%N = (p_sep p =? 46)%N ->
  ((p_sep p =? 46)%N = true -> forall r, r <> [] -> subm n B (s1 r) (s2 r)) ->
  forall fuel l, resm n B (lobj_loop fuel s1 json l p) (lobj_loop fuel s2 json l q).
Proof.
  intros Hk Hl Hsep Hs. induction fuel as [|fuel IH]; intros l; [reflexivity|]. cbn [lobj_loop].
  destruct l as [|c t]; [split; auto|]. destruct (c =? 125)%N; [split; auto|]. destruct (negb (c =? 34)%N); auto.
  destruct (split_str t) as [(b, r0)|]; [|split; auto]. cbv zeta.
  destruct (dropw colon_stop r0) as [|c' t']; [split; auto|]. rewrite Hk, Hsep.
  destruct (p_sep p =? 46)%N eqn:Esep.
  - destruct (kmatch p b); cbn [andb]; auto.
    destruct (container c').
    + specialize (Hs eq_refl (c' :: t') ltac:(discriminate)). unfold subm in Hs.
      destruct (s1 (c' :: t')) as [[v1 p1| |]|e1]; destruct (s2 (c' :: t')) as [[v2 p2| |]|e2]; cbn [bind]; try contradiction; auto.
      destruct (v_exists (fval json (c' :: t'))); [split; auto | auto].
    + destruct (v_exists (fval json (c' :: t'))); [split; auto | auto].
  - rewrite !andb_false_r. cbn [andb]. destruct (_ && _); [split; auto | auto].
Qed.

Lemma piece_match B k ks b : any_comp k -> kmatch (pnext (dotted (k :: ks) ++ 124%N :: B)) b = kmatch (pnext (dotted (k :: ks))) b.
Proof. intros H. rewrite pnext_path1, pnext_path2 by auto. apply path_match. Qed.
Lemma piece_extra k k2 ks : piece k -> p_extra (pnext (dotted (k :: k2 :: ks))) = dotted (k2 :: ks).
Proof. intros H. rewrite dotted_cons by discriminate. apply (piece_next k _ 46%N _ H (sep_rest 46%N _ eq_refl)). Qed.
Lemma piece_extra_pipe B k k2 ks : piece k ->
  p_extra (pnext (dotted (k :: k2 :: ks) ++ 124%N :: B)) = dotted (k2 :: ks) ++ 124%N :: B.
Proof.
  intros H. rewrite dotted_cons by discriminate. rewrite <- app_assoc, <- app_comm_cons.
  apply (piece_next k _ 46%N _ H (sep_rest 46%N _ eq_refl)).
Qed.
Lemma piece_more k ks : piece k -> (p_sep (pnext (dotted (k :: ks))) =? 46)%N = match ks with [] => false | _ => true end.
Proof.
  intros H. destruct ks as [|k2 ks].
  - cbn [dotted]. destruct (piece_next k [] 0%N [] H end_rest) as (_ & E & _). rewrite app_nil_r in E. rewrite E. reflexivity.
  - rewrite dotted_cons by discriminate. destruct (piece_next k _ 46%N _ H (sep_rest 46%N (dotted (k2 :: ks)) eq_refl)) as (_ & E & _).
    rewrite E. reflexivity.
Qed.
Lemma stage_sub m t : stage m -> rest_ok t -> is_modifier (pnext (m ++ t)) || is_multipath (pnext (m ++ t)) = true.
Proof.
  intros H Ht. apply (stage_starts m t H). destruct t as [|s u]; [left; auto|]. right. exists s, u. split; auto.
  cbn in Ht. unfold is_sep in Ht. lia.
Qed.
Lemma dotted_split k ks tail : rest_ok tail -> exists t, dotted (k :: ks) ++ tail = k ++ t /\ rest_ok t.
Proof.
  intros H. destruct ks as [|k2 ks]; [exists tail; auto|]. rewrite dotted_cons by discriminate. rewrite <- app_assoc.
  eexists. split; [reflexivity|]. reflexivity.
Qed.

Lemma lobj_m g B json : forall ks k f1 f2 l n, any_comp k -> Forall piece ks -> length ks < n ->
  length ks < f1 -> length ks < f2 ->
  resm n B (lobj f1 g json l (pnext (dotted (k :: ks)))) (lobj f2 g json l (pnext (dotted (k :: ks) ++ 124%N :: B))).
Proof.
  induction ks as [|k2 ks IH]; intros k f1 f2 l n Hk Hks Hn H1 H2;
    (destruct f1 as [|f1]; [cbn in H1; lia|]); (destruct f2 as [|f2]; [cbn in H2; lia|]); cbn [lobj];
    pose proof (pair_pieces n B k _ (or_introl Hk) Hks Hn) as (_ & _ & HL & HS & _).
  - destruct l as [|c t]; [split; auto|]. destruct (negb (c =? 123)%N); [split; auto|].
    apply lobj_loop_m; auto using piece_match. rewrite (piece_more k [] (or_introl Hk)). discriminate.
  - destruct l as [|c t]; [split; auto|]. destruct (negb (c =? 123)%N); [split; auto|].
    apply lobj_loop_m; auto using piece_match. intros _ r Hr. cbv zeta. inversion Hks as [|? ? Hk2 Hks']; subst.
    rewrite piece_extra, piece_extra_pipe by (left; auto).
    destruct Hk2 as [Hk2|Hk2].
    + assert (Hm : forall s x, is_modifier (cpath k2 s x) || is_multipath (cpath k2 s x) = false).
      { intros s x. destruct (any_not_mod k2 s x Hk2) as [-> ->]. reflexivity. }
      assert (Hm1 : is_modifier (pnext (dotted (k2 :: ks))) || is_multipath (pnext (dotted (k2 :: ks))) = false)
        by (rewrite pnext_path1 by auto; destruct ks; apply Hm).
      assert (Hm2 : is_modifier (pnext (dotted (k2 :: ks) ++ 124%N :: B)) || is_multipath (pnext (dotted (k2 :: ks) ++ 124%N :: B)) = false)
        by (rewrite pnext_path2 by auto; destruct ks; apply Hm).
      rewrite Hm1, Hm2. destruct r as [|c' t']; [congruence|]. cbn [length] in *.
      match goal with |- subm _ _ (bind ?a _) (bind ?b _) => assert (Hab : resm n B a b) end.
      { destruct (c' =? 123)%N; [apply IH; auto; lia|]. apply (larr_pair n g B json false _ k2 ks).
        apply pair_pieces; auto; [left; auto | lia]. }
      unfold resm in Hab.
      match goal with |- subm _ _ (bind ?a _) (bind ?b _) => destruct a as [(v1, p1)|], b as [(v2, p2)|] end; cbn [bind]; try contradiction; auto.
      destruct Hab as [-> Hab]. destruct (v_exists v2); cbn; auto.
    + destruct (dotted_split k2 ks [] I) as (t1 & E1 & R1). destruct (dotted_split k2 ks (124%N :: B) eq_refl) as (t2 & E2 & R2).
      rewrite app_nil_r in E1. rewrite E2, E1, !stage_sub by auto. exact I.
Qed.

Lemma lstart_m n B json k ks : any_comp k -> Forall piece ks -> length ks < n ->
  resm n B (lstart get json (pnext (dotted (k :: ks)))) (lstart get json (pnext (dotted (k :: ks) ++ 124%N :: B))).
Proof.
  intros Hk Hks Hn. pose proof (pair_pieces n B k ks (or_introl Hk) Hks Hn) as HP. pose proof HP as (_ & _ & HL & _).
  unfold lstart. cbv zeta. destruct (dropw above_sp json) as [|c t]; [split; auto|]. pose proof (dotted_len ks) as Hd.
  destruct (c =? 123)%N.
  - apply lobj_m; auto; destruct ks as [|k2 ks]; try (cbn; lia).
    + rewrite piece_extra by (left; auto). lia.
    + rewrite piece_extra_pipe by (left; auto). rewrite app_length. lia.
  - destruct (c =? 91)%N; [apply (larr_pair n get B json false _ k ks); auto | split; auto].
Qed.

Lemma piece_head k : piece k -> k <> [] -> hd 0%N k <> 46%N.
Proof.
  intros [H|H] Hn; [apply any_head; auto|]. destruct (stage_head k H) as (c & t & -> & Hc). cbn [hd]. lia.
Qed.
Lemma split_pieces B ks : Forall piece ks -> ks <> [] ->
  exists lines ks', ks' <> [] /\ Forall piece ks' /\ length ks' <= length ks /\
    split_lines (dotted ks) = (lines, dotted ks') /\
    split_lines (dotted ks ++ 124%N :: B) = (lines, dotted ks' ++ 124%N :: B).
Proof.
  intros H Hn. destruct ks as [|k1 ks]; [congruence|]. inversion H as [|? ? Hk1 Hks]; subst.
  destruct k1 as [|c k1].
  - destruct ks as [|k2 ks]; [exists false, [[]]; split; [discriminate|]; repeat split; auto; destruct B; reflexivity|].
    inversion Hks as [|? ? Hk2 Hks']; subst. destruct k2 as [|c2 k2].
    + destruct ks as [|k3 ks].
      * exists false, [[]; []]. split; [discriminate|]; repeat split; auto.
      * exists true, (k3 :: ks). repeat split; auto; try discriminate. cbn; lia.
    + exists false, ([] :: (c2 :: k2) :: ks). split; [discriminate|]. split; auto. split; auto.
      pose proof (piece_head _ Hk2 ltac:(discriminate)) as Hc. cbn [hd] in Hc.
      rewrite dotted_cons by discriminate. cbn [app]. rewrite !split_lines_cons.
      assert (E : exists t, dotted ((c2 :: k2) :: ks) = c2 :: t) by (destruct ks; cbn; eauto).
      destruct E as (t & ->). cbn [app]. replace (c2 =? 46)%N with false by lia. auto.
  - exists false, ((c :: k1) :: ks). split; [discriminate|]. split; auto. split; auto.
    pose proof (piece_head _ Hk1 ltac:(discriminate)) as Hc. cbn [hd] in Hc.
    assert (E : exists t, dotted ((c :: k1) :: ks) = c :: t) by (destruct ks; cbn; eauto).
    destruct E as (t & ->). cbn [app]. rewrite !split_lines_cons. replace (c =? 46)%N with false by lia. cbn [andb].
    split; [destruct t; auto|]. destruct (t ++ 124%N :: B); auto.
Qed.

Lemma stage_split m tail : stage m -> split_lines (m ++ tail) = (false, m ++ tail).
Proof.
  intros H. destruct (stage_head m H) as (c & t & -> & Hc). cbn [app]. rewrite split_lines_cons.
  replace (c =? 46)%N with false by lia. destruct (t ++ tail); reflexivity.
Qed.

Lemma get_mixed_n : forall n ks B json, length ks <= n -> ks <> [] -> Forall piece ks ->
  get json (dotted ks ++ 124%N :: B) = (v <- get json (dotted ks) ;; v_get v B).
Proof.
  induction n as [n IH] using lt_wf_ind. intros ks B json Hn Hne Hks.
  destruct ks as [|k0 ks0]; [congruence|]. inversion Hks as [|? ? Hk0 Hks0]; subst.
  destruct Hk0 as [Hk0|Hk0].
  2:{ (* a modifier or multipath comes first *)
      destruct ks0 as [|k1 ks1]; [cbn [dotted]; apply get_stage; auto|]. rewrite dotted_cons by discriminate.
      rewrite <- app_assoc, <- app_comm_cons, !get_stage by auto.
      apply bind_bget. intros v. apply v_get_compose. intros j. apply (IH (length (k1 :: ks1)) ltac:(cbn [length] in *; lia) (k1 :: ks1) B j (le_n _) ltac:(discriminate) Hks0). }
  clear Hks0. set (ks := k0 :: ks0) in *.
  rewrite (get_spec json (dotted ks ++ 124%N :: B)), (get_spec json (dotted ks)).
  assert (Hsh : exists lines k t, (lines = false -> any_comp k) /\ piece k /\ Forall piece t /\ length (k :: t) <= length ks /\
    split_lines (dotted ks) = (lines, dotted (k :: t)) /\ split_lines (dotted ks ++ 124%N :: B) = (lines, dotted (k :: t) ++ 124%N :: B)).
  { destruct (split_pieces B ks Hks Hne) as (lines & ks' & Hne' & Hks' & Hlen & E1 & E2). destruct ks' as [|k t]; [congruence|].
    destruct lines.
    - inversion Hks'; subst. exists true, k, t. repeat split; auto. discriminate.
    - exists false, k0, ks0. inversion Hks; subst. repeat split; auto.
      + rewrite E1. f_equal. unfold ks in E1. clear -E1. destruct (dotted (k0 :: ks0)) as [|a [|b u]]; cbn [split_lines] in E1; try congruence.
        destruct (_ && _)%N; congruence.
      + rewrite E2. f_equal. fold ks. clear -E2. destruct (dotted ks ++ 124%N :: B) as [|a [|b u]]; cbn [split_lines] in E2; try congruence.
        destruct (_ && _)%N; congruence. }
  destruct Hsh as (lines & k & t & Hany & Hk & Ht & Hlen & -> & ->). cbn [length] in Hlen.
  assert (H : resm (S (length t)) B (lget_first get json lines (pnext (dotted (k :: t)))) (lget_first get json lines (pnext (dotted (k :: t) ++ 124%N :: B)))).
  { unfold lget_first. destruct lines; [apply (larr_pair _ get B json true _ k t); apply pair_pieces; auto|].
    specialize (Hany eq_refl).
    assert (Hm : forall s x, is_modifier (cpath k s x) = false /\ is_multipath (cpath k s x) = false) by (intros; apply any_not_mod; auto).
    assert (Hm1 : is_modifier (pnext (dotted (k :: t))) = false /\ is_multipath (pnext (dotted (k :: t))) = false)
      by (rewrite pnext_path1 by auto; destruct t; apply Hm).
    assert (Hm2 : is_modifier (pnext (dotted (k :: t) ++ 124%N :: B)) = false /\ is_multipath (pnext (dotted (k :: t) ++ 124%N :: B)) = false)
      by (rewrite pnext_path2 by auto; destruct t; apply Hm).
    destruct Hm1 as [-> ->], Hm2 as [-> ->]. apply lstart_m; auto. }
  unfold resm in H.
  destruct (lget_first get json lines (pnext (dotted (k :: t)))) as [(v1, p1)|e1],
    (lget_first get json lines (pnext (dotted (k :: t) ++ 124%N :: B))) as [(v2, p2)|e2];
    cbn [bind]; try contradiction; [|congruence]. destruct H as [-> [(E1 & E2 & E3)|(E1 & E2 & us & U1 & U2 & U3 & U4 & U5)]].
  - rewrite E1, E2, E3. reflexivity.
  - rewrite E1, E2, U4, U5. cbn [negb]. change (v_get v2 (dotted us ++ 124%N :: B) = bget (v_get v2 (dotted us)) B).
    apply v_get_compose. intros j. apply (IH (length us)); auto. lia.
Qed.

Theorem get_mixed ks B json : ks <> [] -> Forall piece ks ->
  get json (dotted ks ++ 124%N :: B) = (v <- get json (dotted ks) ;; v_get v B).
Proof. intros. apply (get_mixed_n (length ks)); auto. Qed.

(* ---------- whole paths ---------- *)

Theorem get_whole a : whole a -> forall json B, get json (a ++ 124%N :: B) = (v <- get json a ;; v_get v B).
Proof.
  induction 1 as [ks Hn Hks|ks b Hn Hks Hb IH]; intros json B.
  - apply get_mixed; auto.
  - rewrite <- app_assoc. cbn [app]. rewrite !get_mixed by auto. apply bind_bget. intros v. apply v_get_compose.
    intros j. apply IH.
Qed.
Theorem v_get_whole a : whole a -> forall u B, v_get u (a ++ 124%N :: B) = (v <- v_get u a ;; v_get v B).
Proof. intros H u B. apply (v_get_compose u). intros j. apply get_whole; auto. Qed.

(** The paths are closed under the pipe and under the dot. *)
Lemma whole_pipe a : whole a -> forall b, whole b -> whole (a ++ 124%N :: b).
Proof.
  induction 1 as [ks Hn Hks|ks b Hn Hks Hb IH]; intros b' Hb'.
  - apply wh_pipe; auto.
  - rewrite <- app_assoc. apply wh_pipe; auto.
Qed.
Lemma dotted_app ks ps : ks <> [] -> ps <> [] -> dotted (ks ++ ps) = dotted ks ++ 46%N :: dotted ps.
Proof.
  intros Hn Hp. induction ks as [|k ks IH]; [congruence|]. destruct ks as [|k2 ks].
  - cbn [app]. rewrite dotted_cons by auto. reflexivity.
  - change ((k :: k2 :: ks) ++ ps) with (k :: (k2 :: ks) ++ ps). rewrite dotted_cons by discriminate. rewrite IH by discriminate.
    rewrite (dotted_cons k (k2 :: ks)) by discriminate. rewrite <- app_assoc. reflexivity.
Qed.
Lemma whole_dot_pieces ks : ks <> [] -> Forall piece ks -> forall b, whole b -> whole (dotted ks ++ 46%N :: b).
Proof.
  intros Hn Hks b Hb. destruct Hb as [ps Hp Hps|ps b Hp Hps Hb].
  - rewrite <- dotted_app by auto. apply wh_pieces; [destruct ks; [congruence | discriminate] | apply Forall_app; auto].
  - rewrite app_comm_cons, app_assoc, <- dotted_app by auto.
    apply wh_pipe; auto; [destruct ks; [congruence | discriminate] | apply Forall_app; auto].
Qed.
Lemma whole_dot a : whole a -> forall b, whole b -> whole (a ++ 46%N :: b).
Proof.
  induction 1 as [ks Hn Hks|ks b Hn Hks Hb IH]; intros b' Hb'.
  - apply whole_dot_pieces; auto.
  - rewrite <- app_assoc. apply wh_pipe; auto.
Qed.
Lemma whole_piece k : piece k -> whole k.
Proof. intros H. apply (wh_pieces [k]); [discriminate | auto]. Qed.
Lemma pieces_any ks : Forall any_comp ks -> Forall piece ks.
Proof. intros H. eapply Forall_impl; [|exact H]. left; auto. Qed.

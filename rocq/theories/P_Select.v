(** Picking results out of a multipath. *)
From Coq Require Import List NArith ZArith Lia.
From Verif Require Import M_Base M_Util M_Value M_Get M_Valid S_Json S_Num S_Get S_Path S_Query S_Api S_Taken S_Same S_Multi S_Compose S_Mod S_Eval S_Select.
From Verif Require Import P_Base P_Json P_Str P_Closed P_GetMod P_Again P_MultiDoc P_Multi P_Mixed P_Laws P_GetDoc P_GetArr P_Eval P_Path P_Key.
Import ListNotations. Open Scope list_scope. Open Scope nat_scope.

Lemma Fall2_nth {A B} (P : A -> B -> Prop) l l' : Forall2 P l l' -> forall n x y, nth_error l n = Some x -> nth_error l' n = Some y -> P x y.
Proof. induction 1; intros [|n] x' y' E E'; try discriminate; cbn in *; [congruence|eauto]. Qed.

(** What the entries find. *)
Definition found_as (v : value) (cw : cst * bytes) : Prop :=
  wf (fst cw) /\ ws (snd cw) /\ presents v (fst cw) /\ v_json v = rend cw.
Lemma entry_found s p v : valid s = Ok true -> tame p -> get s p = Ok v -> v_exists v = false \/ exists cw, found_as v cw.
Proof.
  intros Hs Hp E. destruct (taken_presents s v Hs (tk_get _ _ _ Hp E)) as [(H & _)|(c & Hc & P)]; [left; exact H|].
  right. destruct (pr_json _ _ P) as (w & Hw & J & _). exists (c, w). repeat split; try assumption; apply P.
Qed.
Definition entries (s : bytes) (es : list entry) (vs : list value) : Prop :=
  Forall2 (fun e v => get s (snd e) = Ok v) es vs.
Lemma entries_found s es vs : valid s = Ok true -> Forall (fun e => tame (snd e)) es -> entries s es vs ->
  exists l, Forall2 found_as (filter v_exists vs) l.
Proof.
  intros Hs Ht. induction 1 as [|e v es vs E H IH]; [exists []; constructor|]. inversion Ht; subst. destruct (IH ltac:(assumption)) as (l & Hl).
  destruct (entry_found s (snd e) v Hs ltac:(assumption) E) as [X|(cw & X)]; cbn [filter].
  - rewrite X. eauto.
  - rewrite (pr_exists _ _ (proj1 (proj2 (proj2 X)))). exists (cw :: l). constructor; auto.
Qed.
Lemma found_json l vs : Forall2 found_as vs l -> map v_json vs = map rend l.
Proof. induction 1 as [|v cw vs l (_ & _ & _ & J) H IH]; [reflexivity|]. cbn [map]. congruence. Qed.
Lemma found_wf l vs : Forall2 found_as vs l -> Forall (fun cw => wf (fst cw) /\ ws (snd cw)) l.
Proof. induction 1 as [|v cw vs l (X & Y & _) H IH]; constructor; auto. Qed.

(** A value that shows the piece. *)
Lemma shows_trimmed v u cw : returned v -> returned u -> found_as u cw -> shows v (fst cw) -> trimmed v u.
Proof.
  intros Rv Ru (Hc & Hw & P & J) S. split; [apply S|]. split; [rewrite (sh_kind _ _ S), (pr_kind _ _ P); reflexivity|].
  exists (snd cw). split; [exact Hw|]. rewrite (sh_json _ _ S). split; [exact J|]. intros E. apply text_decides; auto; [apply S|].
  rewrite (sh_json _ _ S), J. unfold rend. rewrite E, app_nil_r. reflexivity.
Qed.

(** Behind the multipath: as in the text of its result. *)
Lemma array_behind s es vs sep r : valid s = Ok true -> Forall entry_ok es -> es <> [] -> Forall (fun e => tame (snd e)) es ->
  entries s es vs -> (sep = 46 \/ sep = 124)%N ->
  exists l, Forall2 found_as (filter v_exists vs) l /\ wf (mkarrw l) /\
    same_outcome (get s (multi_array es ++ sep :: r)) (get (render (mkarrw l)) r).
Proof.
  intros Hs He Hn Ht Hv Hp. destruct (entries_found s es vs Hs Ht Hv) as (l & Hl). exists l. split; [exact Hl|].
  split; [apply wf_mkarrw, (found_wf _ _ Hl)|]. destruct (multi_array_result s es vs He Hn Hv) as (v & E & _ & _ & J & B).
  rewrite (B sep r Hp). rewrite render_mkarrw, <- (found_json _ _ Hl), <- J. apply vget_text. eapply ret_get, E.
Qed.
Lemma outcome_get s p v : same_outcome (get s p) (Ok v) -> exists x, get s p = Ok x /\ same_answers x v.
Proof. intros H. apply outcome_ok in H. exact H. Qed.

(** The answers of a value that shows something carry over. *)
Lemma same_shows x v c : same_answers x v -> shows v c -> shows x c.
Proof. intros S H. constructor; [rewrite (sa_exists _ _ S)|rewrite (sa_json _ _ S)|rewrite (sa_kind _ _ S)|rewrite (sa_str _ _ S)]; apply H. Qed.

Theorem pick_element s es vs sep k n : valid s = Ok true -> Forall entry_ok es -> es <> [] -> Forall (fun e => tame (snd e)) es ->
  entries s es vs -> (sep = 46 \/ sep = 124)%N -> digits1 k -> digits_val k = Z.of_nat n -> (Z.of_nat n < 2 ^ 63)%Z ->
  match nth_error (filter v_exists vs) n with
  | Some u => exists v, get s (multi_array es ++ sep :: k) = Ok v /\ trimmed v u
  | None => exists v, get s (multi_array es ++ sep :: k) = Ok v /\ v_exists v = false
  end.
Proof.
  intros Hs He Hn Ht Hv Hp Hd Hk Hb. destruct (array_behind s es vs sep k Hs He Hn Ht Hv Hp) as (l & Hl & Hw & O).
  destruct (get_index [] [] (map (fun cw => Item [] (fst cw) (snd cw)) l) [] k n ltac:(constructor) Hw Hd Hk) as [G1 G2].
  fold (mkarrw l) in G1, G2. cbn [app] in G1, G2. rewrite app_nil_r in G1, G2.
  destruct (nth_error (filter v_exists vs) n) as [u|] eqn:U.
  - assert (L : exists cw, nth_error l n = Some cw /\ found_as u cw).
    { clear - Hl U. revert n U. induction Hl as [|x y a b H Hl IH]; intros [|n] U; try discriminate; cbn in *; [injection U as <-; eauto|auto]. }
    destruct L as (cw & L & F). destruct (G1 (Item [] (fst cw) (snd cw))) as (v & E & S); [|exact Hb|].
    + rewrite nth_error_map, L. reflexivity.
    + rewrite E in O. destruct (outcome_get _ _ _ O) as (x & Ex & Sx). exists x. split; [exact Ex|].
      assert (Ru : returned u). { apply nth_error_In, filter_In in U as [U _]. clear - Hv U. induction Hv; [contradiction|]. destruct U as [->|U]; [eapply ret_get; eassumption|auto]. }
      apply (shows_trimmed x u cw); auto; [eapply ret_get, Ex|]. apply (same_shows x v); auto.
  - destruct G2 as (v & E & X). { rewrite map_length. apply nth_error_None in U. rewrite <- (F2_length _ _ _ Hl). exact U. }
    rewrite E in O. destruct (outcome_get _ _ _ O) as (x & Ex & Sx). exists x. split; [exact Ex|]. rewrite (sa_exists _ _ Sx). exact X.
Qed.

Theorem count_found s es vs sep : valid s = Ok true -> Forall entry_ok es -> es <> [] -> Forall (fun e => tame (snd e)) es ->
  entries s es vs -> (sep = 46 \/ sep = 124)%N ->
  exists v, get s (multi_array es ++ [sep; 35%N]) = Ok v /\ v_kind v = KNumber /\ int_literal (v_json v) (Z.of_nat (length (filter v_exists vs))).
Proof.
  intros Hs He Hn Ht Hv Hp. destruct (array_behind s es vs sep [35%N] Hs He Hn Ht Hv Hp) as (l & Hl & Hw & O).
  destruct (get_count [] [] (map (fun cw => Item [] (fst cw) (snd cw)) l) [] ltac:(constructor) Hw) as (v & E & S & I & _).
  fold (mkarrw l) in E. cbn [app] in E. rewrite app_nil_r in E. rewrite E in O. destruct (outcome_get _ _ _ O) as (x & Ex & Sx).
  exists x. split; [exact Ex|]. split; [rewrite (sa_kind _ _ Sx), (sh_kind _ _ S); reflexivity|]. rewrite (sa_json _ _ Sx), (F2_length _ _ _ Hl).
  rewrite map_length in I. exact I.
Qed.

(* ---------- objects ---------- *)

Definition member_as (kv : bytes * value) (x : bytes * (cst * bytes)) : Prop := fst x = fst kv /\ found_as (snd kv) (snd x).
Lemma members_found s es : valid s = Ok true -> Forall (fun e => tame (snd e)) es -> forall vs, entries s es vs -> forall ks,
  exists l, Forall2 member_as (filter (fun kv => v_exists (snd kv)) (combine ks vs)) l.
Proof.
  intros Hs Ht. induction 1 as [|e v es vs E H IH]; intros ks; [exists []; destruct ks; constructor|]. inversion Ht; subst.
  destruct ks as [|k ks]; [exists []; constructor|]. destruct (IH ltac:(assumption) ks) as (l & Hl). cbn [combine].
  destruct (entry_found s (snd e) v Hs ltac:(assumption) E) as [X|(cw & X)]; cbn [filter snd].
  - rewrite X. eauto.
  - rewrite (pr_exists _ _ (proj1 (proj2 (proj2 X)))). exists ((k, cw) :: l). constructor; auto. split; auto.
Qed.
Lemma member_text l kvs : Forall2 member_as kvs l ->
  map (fun kv => json_string (fst kv) ++ 58%N :: v_json (snd kv)) kvs = map (fun x => json_string (fst x) ++ 58%N :: rend (snd x)) l.
Proof. induction 1 as [|kv x a b (E & _ & _ & _ & J) H IH]; [reflexivity|]. cbn [map]. rewrite IH, E, J. reflexivity. Qed.
Lemma member_wf l kvs : Forall2 member_as kvs l -> Forall (fun x => wf (fst (snd x)) /\ ws (snd (snd x))) l.
Proof. induction 1 as [|kv x a b (_ & X & Y & _) H IH]; constructor; auto. Qed.

Lemma object_behind s es vs ks sep r : valid s = Ok true -> Forall entry_ok es -> es <> [] -> Forall (fun e => tame (snd e)) es ->
  entries s es vs -> Forall2 entry_key es ks -> (sep = 46 \/ sep = 124)%N ->
  exists l, Forall2 member_as (filter (fun kv => v_exists (snd kv)) (combine ks vs)) l /\ wf (mkobjw l) /\
    same_outcome (get s (multi_object es ++ sep :: r)) (get (render (mkobjw l)) r).
Proof.
  intros Hs He Hn Ht Hv Hk Hp. destruct (members_found s es Hs Ht vs Hv ks) as (l & Hl). exists l. split; [exact Hl|].
  split; [apply wf_mkobjw, (member_wf _ _ Hl)|]. destruct (multi_object_result s es vs He Hn Hv) as (v & ks' & E & _ & _ & K & J & B).
  assert (ks' = ks).
  { clear - Hk K. revert ks Hk. induction K as [|e k es ks' H K IH]; intros ks Hk; inversion Hk; subst; [reflexivity|]. f_equal; [eapply entry_key_unique; eassumption|auto]. }
  subst ks'. rewrite (B sep r Hp). rewrite render_mkobjw, <- (member_text _ _ Hl), <- J. apply vget_text. eapply ret_get, E.
Qed.

Lemma named_key k w c n : named (Memb [] (key_body k) [] [] c w) n <-> n = k.
Proof.
  unfold named. cbn [m_key]. rewrite <- json_string_quoted. change (json_string k) with (escape k). rewrite escape_unescape. split; congruence.
Qed.

Section Members.
Context (s : bytes) (es : list entry) (vs : list value) (ks : list bytes) (sep : N) (k : bytes).
Context (Hs : valid s = Ok true) (He : Forall entry_ok es) (Hn : es <> []) (Ht : Forall (fun e => tame (snd e)) es)
  (Hv : entries s es vs) (Hk : Forall2 entry_key es ks) (Hp : (sep = 46 \/ sep = 124)%N) (Hpl : plain_key k).

Lemma entries_returned u k' : In (k', u) (combine ks vs) -> returned u.
Proof using Hv.
  intros U. apply in_combine_r in U. clear - Hv U. induction Hv; [contradiction|]. destruct U as [->|U]; [eapply ret_get; eassumption|auto].
Qed.
Theorem pick_member a u b : combine ks vs = a ++ (k, u) :: b -> v_exists u = true -> (forall u', In (k, u') a -> v_exists u' = false) ->
  exists v, get s (multi_object es ++ sep :: k) = Ok v /\ trimmed v u.
Proof using All.
  intros E X Y. destruct (object_behind s es vs ks sep k Hs He Hn Ht Hv Hk Hp) as (l & Hl & Hw & O).
  assert (Ru : returned u) by (apply (entries_returned u k); rewrite E, in_app_iff; right; left; reflexivity).
  rewrite E, filter_app in Hl. cbn [filter snd] in Hl. rewrite X in Hl. apply Forall2_app_inv_l in Hl as (l1 & l2 & H1 & H2 & ->).
  inversion H2 as [|? x ? l2' (Ek & F) H2']; subst. destruct x as [kx cw]. cbn [fst snd] in Ek, F. subst kx.
  set (ms := map (fun kv : bytes * (cst * bytes) => Memb [] (key_body (fst kv)) [] [] (fst (snd kv)) (snd (snd kv)))) in *.
  destruct (get_name [] [] (ms (l1 ++ (k, cw) :: l2')) [] k ltac:(constructor) Hw Hpl) as [G _].
  destruct (G (ms l1) (Memb [] (key_body k) [] [] (fst cw) (snd cw)) (ms l2') k) as (v & Ev & Sv).
  - unfold ms. rewrite map_app. reflexivity.
  - apply named_key. reflexivity.
  - reflexivity.
  - unfold ms. apply Forall_map. apply Forall_forall. intros [k' cw'] Hi n' Hn' <-. apply named_key in Hn'. cbn [fst] in Hn'. subst k'.
    clear - H1 Hi Y. assert (Z : exists u', In (k, u') a /\ v_exists u' = true).
    { revert Hi Y. remember (filter _ a) as fa eqn:Ef. assert (I : forall x, In x fa -> In x a /\ v_exists (snd x) = true) by (intros x Hx; subst fa; apply filter_In in Hx; exact Hx). clear Ef.
      induction H1 as [|kv x fa l1 (Ek & _) H1 IH]; intros Hi Y; [contradiction|]. destruct Hi as [->|Hi].
      - destruct kv as [k' u']. cbn [fst] in Ek. subst k'. exists u'. apply (I (k, u')). left. reflexivity.
      - apply IH; auto. intros y Hy. apply I. right. exact Hy. }
    destruct Z as (u' & Z1 & Z2). rewrite (Y u' Z1) in Z2. discriminate.
  - change (CObj [] (ms (l1 ++ (k, cw) :: l2'))) with (mkobjw (l1 ++ (k, cw) :: l2')) in Ev. cbn [app] in Ev. rewrite app_nil_r in Ev.
    rewrite Ev in O. destruct (outcome_get _ _ _ O) as (x & Ex & Sx). exists x. split; [exact Ex|].
    apply (shows_trimmed x u cw); auto; [eapply ret_get, Ex|]. apply (same_shows x v); auto.
Qed.
Theorem pick_no_member : (forall u', In (k, u') (combine ks vs) -> v_exists u' = false) ->
  exists v, get s (multi_object es ++ sep :: k) = Ok v /\ v_exists v = false.
Proof using All.
  intros Y. destruct (object_behind s es vs ks sep k Hs He Hn Ht Hv Hk Hp) as (l & Hl & Hw & O).
  destruct (get_name [] [] (map (fun kv : bytes * (cst * bytes) => Memb [] (key_body (fst kv)) [] [] (fst (snd kv)) (snd (snd kv))) l) [] k ltac:(constructor) Hw Hpl) as [_ G].
  destruct G as (v & Ev & Sv).
  - apply Forall_map. apply Forall_forall. intros [k' cw'] Hi n' Hn' <-. apply named_key in Hn'. cbn [fst] in Hn'. subst k'.
    clear - Hl Hi Y. assert (Z : exists u', In (k, u') (combine ks vs) /\ v_exists u' = true).
    { revert Hi. remember (filter _ _) as fa eqn:Ef. assert (I : forall x, In x fa -> In x (combine ks vs) /\ v_exists (snd x) = true) by (intros x Hx; subst fa; apply filter_In in Hx; exact Hx). clear Ef.
      induction Hl as [|kv x fa l1 (Ek & _) H1 IH]; intros Hi; [contradiction|]. destruct Hi as [->|Hi].
      - destruct kv as [k' u']. cbn [fst] in Ek. subst k'. exists u'. apply (I (k, u')). left. reflexivity.
      - apply IH; auto. intros y Hy. apply I. right. exact Hy. }
    destruct Z as (u' & Z1 & Z2). rewrite (Y u' Z1) in Z2. discriminate.
  - fold (mkobjw l) in Ev. cbn [app] in Ev. rewrite app_nil_r in Ev. rewrite Ev in O. destruct (outcome_get _ _ _ O) as (x & Ex & Sx).
    exists x. split; [exact Ex|]. rewrite (sa_exists _ _ Sx). exact Sv.
Qed.
End Members.

(* ---------- replacing ---------- *)

Lemma piped_same s p q v u : whole p -> whole q -> get s p = Ok v -> get s q = Ok u -> same_answers v u -> piped s p q.
Proof.
  intros Wp Wq Ep Eq S. split; [rewrite Ep, Eq; exact S|]. intros b. rewrite !get_whole by assumption. rewrite Ep, Eq. cbn [bind].
  apply same_vget; [eapply ret_get; eauto|eapply ret_get; eauto|apply S].
Qed.
Lemma trimmed_same v u : trimmed v u -> ends_well (v_json u) -> same_answers v u.
Proof.
  intros (_ & _ & w & Hw & J & S) N. apply S. destruct w as [|c0 w0] using rev_ind; [reflexivity|exfalso]. rewrite app_assoc in J.
  apply (N _ _ J). unfold ws in *. apply Forall_app in Hw. apply Hw.
Qed.
Lemma stage_then m sep k : stage m -> (sep = 46 \/ sep = 124)%N -> any_comp k -> whole (m ++ sep :: k).
Proof.
  intros Hm [->| ->] Hk.
  - apply (wh_pieces [m; k]); [discriminate|]. constructor; [right; exact Hm|]. constructor; [left; exact Hk|constructor].
  - apply (wh_pipe [m] k); [discriminate|constructor; [right; exact Hm|constructor]|]. apply (wh_pieces [k]); [discriminate|]. constructor; [left; exact Hk|constructor].
Qed.
Lemma stage_array es : Forall entry_ok es -> stage (multi_array es).
Proof. intros H. apply st_array. apply entries_balanced, H. Qed.
Lemma stage_object es : Forall entry_ok es -> stage (multi_object es).
Proof. intros H. apply st_object. apply entries_balanced, H. Qed.

Lemma digits_plain k : digits1 k -> plain_key k.
Proof.
  intros [Hne H]. assert (D : forall c, digit c -> comp_byte c /\ wild_byte c = false).
  { intros c [H1 H2]. unfold comp_byte, wild_byte. split; [repeat split; lia|]. apply Bool.orb_false_iff. split; apply N.eqb_neq; lia. }
  split; [eapply Forall_impl; [|exact H]; exact D|]. destruct H as [|c k [H1 H2] H]; [exact I|]. cbn. repeat split; lia.
Qed.
Lemma digits_any k : digits1 k -> any_comp k.
Proof. intros H. left. apply plain_comp, digits_plain, H. Qed.
Lemma nth_filter {A} (f : A -> bool) : forall l i u, nth_error l i = Some u -> f u = true -> nth_error (filter f l) (length (filter f (firstn i l))) = Some u.
Proof.
  induction l as [|x l IH]; intros [|i] u E F; try discriminate; cbn in E; cbn [firstn filter length].
  - injection E as ->. rewrite F. reflexivity.
  - destruct (f x); cbn [length nth_error]; apply IH; auto.
Qed.

Theorem element_piped s es vs sep k i e u : valid s = Ok true -> Forall entry_ok es -> Forall (fun e => tame (snd e)) es ->
  entries s es vs -> (sep = 46 \/ sep = 124)%N -> nth_error es i = Some e -> whole (snd e) ->
  nth_error vs i = Some u -> v_exists u = true -> ends_well (v_json u) ->
  digits1 k -> digits_val k = Z.of_nat (length (filter v_exists (firstn i vs))) -> (digits_val k < 2 ^ 63)%Z ->
  piped s (multi_array es ++ sep :: k) (snd e).
Proof.
  intros Hs He Ht Hv Hp Ee We Eu Xu Nu Hd Hk Hb. assert (Hn : es <> []) by (destruct es; [destruct i; discriminate|discriminate]).
  rewrite Hk in Hb. pose proof (pick_element s es vs sep k _ Hs He Hn Ht Hv Hp Hd Hk Hb) as P. rewrite (nth_filter v_exists vs i u Eu Xu) in P.
  destruct P as (v & E & T). apply (piped_same s _ _ v u); [apply stage_then; auto using stage_array, digits_any|exact We|exact E| |apply trimmed_same; assumption].
  exact (Fall2_nth _ _ _ Hv i e u Ee Eu).
Qed.

Theorem member_piped s es vs ks sep k i e u : valid s = Ok true -> Forall entry_ok es -> Forall (fun e => tame (snd e)) es ->
  entries s es vs -> Forall2 entry_key es ks -> (sep = 46 \/ sep = 124)%N -> nth_error es i = Some e -> whole (snd e) ->
  nth_error vs i = Some u -> v_exists u = true -> ends_well (v_json u) ->
  plain_key k -> nth_error ks i = Some k -> (forall j u', j < i -> nth_error ks j = Some k -> nth_error vs j = Some u' -> v_exists u' = false) ->
  piped s (multi_object es ++ sep :: k) (snd e).
Proof.
  intros Hs He Ht Hv Hks Hp Ee We Eu Xu Nu Hpl Ek Hf. assert (Hn : es <> []) by (destruct es; [destruct i; discriminate|discriminate]).
  assert (C : exists a b, combine ks vs = a ++ (k, u) :: b /\ forall u', In (k, u') a -> v_exists u' = false).
  { clear - Eu Ek Hf. revert vs i Eu Ek Hf. induction ks as [|k' ks IH]; intros vs i Eu Ek Hf; [destruct i; discriminate|].
    destruct vs as [|v' vs]; [destruct i; discriminate|]. destruct i as [|i]; cbn in Eu, Ek.
    - injection Eu as ->. injection Ek as ->. exists [], (combine ks vs). split; [reflexivity|intros ? []].
    - destruct (IH vs i Eu Ek) as (a & b & E & F). { intros j u' Hj. apply (Hf (S j) u'). lia. }
      exists ((k', v') :: a), b. cbn [combine app]. rewrite E. split; [reflexivity|]. intros u' [U|U]; [|exact (F u' U)]. injection U as -> ->. apply (Hf 0 u'); [lia|reflexivity|reflexivity]. }
  destruct C as (a & b & C & F). destruct (pick_member s es vs ks sep k Hs He Hn Ht Hv Hks Hp Hpl a u b C Xu F) as (v & E & T).
  apply (piped_same s _ _ v u); [apply stage_then; auto using stage_object; left; apply plain_comp, Hpl|exact We|exact E| |apply trimmed_same; assumption].
  exact (Fall2_nth _ _ _ Hv i e u Ee Eu).
Qed.

(* ---------- the rest of the path for every entry ---------- *)


Section Spread.
Context (mt : text -> text -> bool) (ix : text -> option nat) (hd : text -> cst -> bool) (ss : list step).
Context (Hm : meaning mt ix hd ss) (Hok : steps_ok ss) (Hne : ss <> []).
Notation x := (dotted (map step_text ss)).

Definition after_x (c : cst) : value := match get (render c) x with Ok v => v | Err _ => value_default end.
Lemma after_ok c : wf c -> get (render c) x = Ok (after_x c) /\ answers (render c) x (result mt ix hd ss c).
Proof using All.
  intros H. pose proof (get_result mt ix hd ss c [] [] Hm Hok Hne ltac:(constructor) H) as A. cbn [app] in A. rewrite app_nil_r in A. split; [|exact A].
  unfold after_x. destruct (result mt ix hd ss c); destruct A as (v & -> & _); reflexivity.
Qed.
Lemma answers_same s c r v u : answers s x r -> answers c x r -> get s x = Ok v -> get c x = Ok u -> v_exists v = v_exists u /\ (v_exists u = true -> v_json v = v_json u).
Proof using.
  destruct r as [d|]; intros (v' & E' & S) (u' & F' & T) E F; rewrite E in E'; rewrite F in F'; injection E' as <-; injection F' as <-.
  - rewrite (sh_exists _ _ S), (sh_exists _ _ T), (sh_json _ _ S), (sh_json _ _ T). auto.
  - rewrite S, T. split; [reflexivity|discriminate].
Qed.

Lemma entry_behind (s : bytes) (e : entry) (v : value) : valid s = Ok true -> tame (snd e) -> whole (snd e) -> get s (snd e) = Ok v ->
  exists y, get s (snd (extend x e)) = Ok y /\
    match v_exists v with
    | false => v_exists y = false
    | true => forall cw, found_as v cw -> v_exists y = v_exists (after_x (fst cw)) /\ (v_exists y = true -> v_json y = v_json (after_x (fst cw)))
    end.
Proof using All.
  intros Hs Ht Hw E. pose proof (pipe_outcome s (snd e) x v Hw E) as O. cbn [extend snd]. destruct (v_exists v) eqn:X.
  - destruct (entry_found s (snd e) v Hs Ht E) as [X'|(cw & Hc & Hb & P & J)]; [congruence|]. rewrite J in O. unfold rend in O.
    pose proof (get_result mt ix hd ss (fst cw) [] (snd cw) Hm Hok Hne ltac:(constructor) Hc) as A. cbn [app] in A.
    assert (G : exists z, get (render (fst cw) ++ snd cw) x = Ok z) by (destruct (result mt ix hd ss (fst cw)); destruct A as (z & Ez & _); eauto).
    destruct G as (z & Ez). rewrite Ez in O. destruct (outcome_get _ _ _ O) as (y & Ey & Sy). exists y. split; [exact Ey|]. intros cw' (Hc' & Hb' & P' & J').
    rewrite J in J'. unfold rend in J'.
    pose proof (get_result mt ix hd ss (fst cw') [] (snd cw') Hm Hok Hne ltac:(constructor) Hc') as A'. cbn [app] in A'. rewrite <- J' in A'.
    destruct (after_ok (fst cw') Hc') as (Ea & Aa). destruct (answers_same _ _ _ z (after_x (fst cw')) A' Aa Ez Ea) as (S1 & S2).
    rewrite (sa_exists _ _ Sy), (sa_json _ _ Sy). split; [exact S1|]. intros Z. apply S2. congruence.
  - assert (J : v_json v = []). { unfold v_exists in X. destruct (v_json v); [reflexivity|discriminate]. }
    rewrite J in O. destruct (P_Eval.get_nothing ss ss) as (z & Ez & Xz); [|exact Hne|].
    { split; [|apply Hok]. apply Forall_forall. intros t Hi. split; [|exact Hi]. exact (proj1 (Forall_forall _ _) (proj1 Hok) t Hi). }
    rewrite Ez in O. destruct (outcome_get _ _ _ O) as (y & Ey & Sy). exists y. split; [exact Ey|]. rewrite (sa_exists _ _ Sy). exact Xz.
Qed.

Theorem spread s es vs : valid s = Ok true -> Forall entry_ok es -> es <> [] -> Forall (fun e => tame (snd e)) es ->
  Forall (fun e => whole (snd e)) es -> sub_path x -> entries s es vs ->
  piped s (multi_array es ++ 124%N :: 35%N :: 46%N :: x) (multi_array (map (extend x) es)).
Proof using All.
  intros Hs He Hn Ht Hw Hx Hv.
  assert (He' : Forall entry_ok (map (extend x) es)).
  { apply Forall_map. eapply Forall_impl; [|exact He]. intros [n p] [A B]. split; [exact A|]. cbn [extend fst snd] in *. apply part_app; [exact B|].
    apply (pt_plain false 124%N x); [|exact Hx]. left. unfold S_Multi.special, bracket_open, bracket_close. intuition discriminate. }
  assert (Y : exists ys, entries s (map (extend x) es) ys /\ forall l, Forall2 found_as (filter v_exists vs) l ->
    map v_json (filter v_exists ys) = map v_json (filter v_exists (map (fun cw => after_x (fst cw)) l))).
  { clear - Hs Ht Hw Hv Hm Hok Hne. induction Hv as [|e v es vs E Hv IH]; [exists []; split; [constructor|]; intros l Hl; inversion Hl; reflexivity|].
    inversion Ht; inversion Hw; subst. destruct IH as (ys & Hy & K); try assumption.
    destruct (entry_behind s e v Hs ltac:(assumption) ltac:(assumption) E) as (y & Ey & Sy). exists (y :: ys). split; [constructor; assumption|].
    intros l Hl. cbn [filter] in Hl. destruct (v_exists v).
    - inversion Hl as [|? cw ? l' F Hl']; subst. destruct (Sy cw F) as (S1 & S2). cbn [map filter]. rewrite <- S1. destruct (v_exists y); cbn [map]; rewrite (K l' Hl'); [rewrite S2 by reflexivity|]; reflexivity.
    - cbn [filter]. rewrite Sy. apply K, Hl. }
  destruct Y as (ys & Hy & K).
  destruct (array_behind s es vs 124%N (35%N :: 46%N :: x) Hs He Hn Ht Hv ltac:(right; reflexivity)) as (l & Hl & Wl & O).
  assert (Wf : Forall (fun cw => wf (fst cw)) l) by (eapply Forall_impl; [|exact (found_wf _ _ Hl)]; intros cw [A _]; exact A).
  destruct (P_GetArr.get_each [] [] (map (fun cw => Item [] (fst cw) (snd cw)) l) [] (map step_text ss) after_x) as (g & Eg & Xg & Kg & Jg); try (constructor; fail).
  - exact Wl.
  - apply Forall_map. eapply Forall_impl; [|exact (proj1 Hok)]. intros t. apply step_any.
  - destruct ss; [congruence|discriminate].
  - intros e Hi. apply in_map_iff in Hi as (cw & <- & Hi). cbn [i_val]. apply after_ok. exact (proj1 (Forall_forall _ _) Wf cw Hi).
  - fold (mkarrw l) in Eg. cbn [app] in Eg. rewrite app_nil_r in Eg. rewrite Eg in O. destruct (outcome_get _ _ _ O) as (a & Ea & Sa).
    destruct (multi_array_result s (map (extend x) es) ys He' ltac:(destruct es; [congruence|discriminate]) Hy) as (b & Eb & Xb & Kb & Jb & _).
    apply (piped_same s _ _ a b); [| |exact Ea|exact Eb|].
    + apply (wh_pipe [multi_array es] (35%N :: 46%N :: x)); [discriminate|constructor; [right; apply stage_array, He|constructor]|].
      replace (35%N :: 46%N :: x) with (dotted ([35%N] :: map step_text ss)) by (destruct ss; [congruence|reflexivity]).
      apply wh_pieces; [discriminate|]. constructor; [left; right; left; reflexivity|]. apply Forall_map. eapply Forall_impl; [|exact (proj1 Hok)]. intros t T. left. apply step_any, T.
    + apply (wh_pieces [multi_array (map (extend x) es)]); [discriminate|]. constructor; [right; apply stage_array, He'|constructor].
    + apply text_decides; [eapply ret_get, Ea|eapply ret_get, Eb|rewrite (sa_exists _ _ Sa); exact Xg|]. rewrite (sa_json _ _ Sa), Jg, Jb, (K l Hl), map_map. reflexivity.
Qed.
End Spread.

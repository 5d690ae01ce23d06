(** A document and the text of its parsed value give the same lookups up to the
    recorded index. *)
From Verif Require Import P_Base P_Json P_Valid P_ValidSpec P_Str P_Glob P_Scan P_Each P_Doc P_Path P_LGet P_Parts P_Ext P_Total P_Value P_Num
  P_Key P_Find P_GetDoc P_GetArr P_Stream P_Closed P_Reach P_Taken P_Pipe P_Mod P_ModDoc P_Tree P_POut
  M_Util M_Num M_Scan M_Value M_Path M_Valid M_Get S_Json S_Get S_Path S_Api S_Follow S_Taken S_Mod M_Pretty S_PrettyArg S_Tree.

(** Forgetting the recorded index. *)
Definition nix (v : value) : value := setix v None.
Definition er (m : R value) : R value := v <- m ;; Ok (nix v).
Definition er2 (m : R (value * path)) : R (value * path) := '(v, p) <- m ;; Ok (nix v, p).

Lemma nix_json a b : nix a = nix b -> v_json a = v_json b.
Proof. intros H. exact (f_equal v_json H). Qed.
Lemma nix_exists a b : nix a = nix b -> v_exists a = v_exists b.
Proof. intros H. exact (f_equal v_exists H). Qed.
Lemma nix_slice a b : nix a = nix b -> v_slice a = v_slice b.
Proof. intros H. exact (f_equal v_slice H). Qed.
Lemma nix_owned a b : nix a = nix b -> v_owned a = v_owned b.
Proof. intros H. exact (f_equal v_owned H). Qed.
Lemma nix_veq a b : nix a = nix b -> veq a b.
Proof. intros H. split; [exact (nix_json _ _ H)|]. split; [exact (f_equal v_uesc H) | exact (f_equal v_info H)]. Qed.
Lemma nix_into a b : nix a = nix b -> nix (json_into_owned a) = nix (json_into_owned b).
Proof. intros H. exact (f_equal (fun v => nix (json_into_owned v)) H). Qed.
Lemma nix_push st a b : nix a = nix b -> push_elem st a = push_elem st b.
Proof. intros H. exact (f_equal (push_elem st) H). Qed.

Lemma er_ok a b : nix a = nix b -> er (Ok a) = er (Ok b).
Proof. intros H. cbn [er bind]. rewrite H. reflexivity. Qed.
Lemma er2_ok a b p : nix a = nix b -> er2 (Ok (a, p)) = er2 (Ok (b, p)).
Proof. intros H. cbn [er2 bind]. rewrite H. reflexivity. Qed.
Lemma er_cases x y : er x = er y -> (exists a b, x = Ok a /\ y = Ok b /\ nix a = nix b) \/ (exists e, x = Err e /\ y = Err e).
Proof.
  destruct x as [a|e], y as [b|f]; cbn [er bind]; intros H; try discriminate.
  - left. exists a, b. repeat split. congruence.
  - right. exists e. split; congruence.
Qed.
Lemma er2_cases x y : er2 x = er2 y -> (exists a b p, x = Ok (a, p) /\ y = Ok (b, p) /\ nix a = nix b) \/ (exists e, x = Err e /\ y = Err e).
Proof.
  destruct x as [[a p]|e], y as [[b q]|f]; cbn [er2 bind]; intros H; try discriminate.
  - left. assert (p = q) as -> by congruence. exists a, b, q. repeat split. congruence.
  - right. exists e. split; congruence.
Qed.

Lemma v_get_nix0 g a p : er (v_get_with g a p) = er (v_get_with g (nix a) p).
Proof.
  unfold v_get_with. change (v_slice (nix a)) with (v_slice a). change (v_owned (nix a)) with (v_owned a).
  destruct (match v_slice a with [] => r <- g (v_owned a) p ;; Ok (json_into_owned r) | _ :: _ => g (v_slice a) p end) as [r|e]; reflexivity.
Qed.
Lemma v_get_nix g a b p : nix a = nix b -> er (v_get_with g a p) = er (v_get_with g b p).
Proof. intros H. rewrite v_get_nix0, H, <- v_get_nix0. reflexivity. Qed.

Lemma query_matches_nix a b op rh : nix a = nix b -> query_matches a op rh = query_matches b op rh.
Proof. intros H. rewrite <- (query_matches_ix a None), <- (query_matches_ix b None). unfold nix in H. rewrite H. reflexivity. Qed.

Lemma elem_matches_nix g a b lh op rh : nix a = nix b -> elem_matches g a lh op rh = elem_matches g b lh op rh.
Proof.
  intros H. unfold elem_matches. destruct lh as [|l lh]; [apply query_matches_nix, H|].
  destruct (er_cases _ _ (v_get_nix g a b (l :: lh) H)) as [(x & y & -> & -> & E)|(e & -> & ->)]; cbn [bind]; auto.
  apply query_matches_nix, E.
Qed.

Definition ro (m : R (option value)) : R (option value) := o <- m ;; Ok (option_map nix o).

Lemma push_all_nix f l1 l2 : (forall a b, nix a = nix b -> ro (f a) = ro (f b)) -> map nix l1 = map nix l2 -> forall st,
  push_all f l1 st = push_all f l2 st.
Proof.
  intros Hf. revert l2. induction l1 as [|a l1 IH]; intros [|b l2] H st; try discriminate; auto.
  cbn [map] in H. assert (Hab : nix a = nix b) by congruence. assert (Hl : map nix l1 = map nix l2) by congruence. cbn [push_all]. specialize (Hf a b Hab).
  destruct (f a) as [[x|]|e], (f b) as [[y|]|e']; cbn [ro bind option_map] in Hf; try discriminate; cbn [bind].
  - rewrite (nix_push st x y) by congruence. apply IH, Hl.
  - apply IH, Hl.
  - congruence.
Qed.

Lemma find_r_nix f l1 l2 : (forall a b, nix a = nix b -> f a = f b) -> map nix l1 = map nix l2 ->
  er (find_r f l1) = er (find_r f l2).
Proof.
  intros Hf. revert l2. induction l1 as [|a l1 IH]; intros [|b l2] H; try discriminate; auto.
  cbn [map] in H. assert (Hab : nix a = nix b) by congruence. assert (Hl : map nix l1 = map nix l2) by congruence. cbn [find_r]. rewrite (Hf a b Hab).
  destruct (f b) as [[]|e]; cbn [bind]; auto. apply er_ok, Hab.
Qed.

Lemma nth_nix n l1 l2 : map nix l1 = map nix l2 -> nix (nth n l1 value_default) = nix (nth n l2 value_default).
Proof. intros H. rewrite <- (map_nth nix l1), <- (map_nth nix l2), H. reflexivity. Qed.

Lemma larr_nix g d1 d2 n1 n2 l1 l2 p : map nix (elems d1 n1 l1) = map nix (elems d2 n2 l2) ->
  er2 (larr g d1 n1 l1 p) = er2 (larr g d2 n2 l2 p).
Proof.
  intros H. unfold larr. cbv zeta. set (xs := elems d1 n1 l1) in *. set (ys := elems d2 n2 l2) in *.
  assert (Hat : er2 (Ok (if (0 <=? comp_index (p_comp p))%Z then nth (Z.to_nat (comp_index (p_comp p))) xs value_default else value_default, p)) =
    er2 (Ok (if (0 <=? comp_index (p_comp p))%Z then nth (Z.to_nat (comp_index (p_comp p))) ys value_default else value_default, p))).
  { apply er2_ok. destruct (0 <=? comp_index (p_comp p))%Z; auto. apply nth_nix, H. }
  destruct (p_comp p) as [|c t]; auto. destruct (c =? 35)%N; auto.
  destruct t as [|d t].
  - destruct (p_sep p =? 46)%N.
    + destruct (next_group p) as [[gr rest]|e]; cbn [bind]; auto.
      rewrite (push_all_nix _ xs ys); auto. intros a b Hab.
      destruct (er_cases _ _ (v_get_nix g a b gr Hab)) as [(x & y & -> & -> & E)|(e & -> & ->)]; cbn [bind ro option_map]; auto.
      rewrite E. reflexivity.
    + apply er2_ok. pose proof (f_equal (@length value) H) as Hl. rewrite !map_length in Hl. rewrite Hl. reflexivity.
  - destruct (last (d :: t) 0 =? 35)%N.
    + destruct (query_parts (c :: d :: t)) as [[[lh op] rh]|e]; cbn [bind]; auto.
      destruct (next_group p) as [[gr rest]|e]; cbn [bind]; auto.
      rewrite (push_all_nix _ xs ys); auto. intros a b Hab. rewrite (elem_matches_nix g a b lh op rh Hab).
      destruct (elem_matches g b lh op rh) as [[]|e]; cbn [bind]; auto.
      destruct (p_sep p =? 46)%N; [|cbn [ro bind option_map]; rewrite Hab; reflexivity].
      destruct (er_cases _ _ (v_get_nix g a b gr Hab)) as [(x & y & -> & -> & E)|(e & -> & ->)]; cbn [bind ro option_map]; auto.
      rewrite E. reflexivity.
    + destruct (query_parts (c :: d :: t)) as [[[lh op] rh]|e]; cbn [bind]; auto.
      destruct (er_cases (find_r (fun v => elem_matches g v lh op rh) xs) (find_r (fun v => elem_matches g v lh op rh) ys))
        as [(x & y & -> & -> & E)|(e & -> & ->)]; cbn [bind]; auto.
      * apply find_r_nix; auto. intros a b Hab. apply elem_matches_nix, Hab.
      * apply er2_ok, E.
Qed.

Lemma fval_nix d1 d2 x : nix (fval d1 x) = nix (fval d2 x).
Proof. unfold fval. destruct (linfo x =? 0)%N; reflexivity. Qed.
Lemma elems_nix d1 d2 lines l : map nix (elems d1 lines l) = map nix (elems d2 lines l).
Proof. unfold elems. rewrite !map_map. apply map_ext. intros x. apply fval_nix. Qed.

Definition dnix (d : ldescent) : ldescent := match d with LReturn v p => LReturn (nix v) p | _ => d end.
Definition erd (m : R ldescent) : R ldescent := d <- m ;; Ok (dnix d).

Lemma lobj_loop_nix s1 s2 d1 d2 p n : (forall r, length r <= n -> erd (s1 r) = erd (s2 r)) ->
  forall fuel l, length l <= n -> er2 (lobj_loop fuel s1 d1 l p) = er2 (lobj_loop fuel s2 d2 l p).
Proof.
  intros H. induction fuel as [|fuel IH]; intros l Hn; auto. cbn [lobj_loop].
  destruct l as [|c t]; auto. cbn [length] in Hn. destruct (c =? 125)%N; auto. destruct (negb (c =? 34)%N); [apply IH; lia|].
  destruct (split_str t) as [[b r0]|] eqn:Es; auto. apply split_rest in Es as [_ Hl].
  pose proof (dropw_length colon_stop r0) as Hd. cbv zeta. destruct (dropw colon_stop r0) as [|c' t'] eqn:Er; auto.
  destruct (lrest_suf (c' :: t')) as [_ Hll]. specialize (Hll ltac:(discriminate)).
  assert (Hflat : er2 (if kmatch p b && v_exists (fval d1 (c' :: t')) then Ok (fval d1 (c' :: t'), p) else lobj_loop fuel s1 d1 (lrest (c' :: t')) p) =
                  er2 (if kmatch p b && v_exists (fval d2 (c' :: t')) then Ok (fval d2 (c' :: t'), p) else lobj_loop fuel s2 d2 (lrest (c' :: t')) p)).
  { rewrite (nix_exists _ _ (fval_nix d1 d2 (c' :: t'))).
    destruct (kmatch p b && v_exists (fval d2 (c' :: t'))); [apply er2_ok, fval_nix | apply IH; lia]. }
  destruct (kmatch p b && (p_sep p =? 46)%N && container c'); auto.
  specialize (H (c' :: t') ltac:(lia)). destruct (s1 (c' :: t')) as [[v1 q1| |]|e1], (s2 (c' :: t')) as [[v2 q2| |]|e2]; cbn [erd bind dnix] in H;
    try discriminate; cbn [bind]; auto.
  - assert (q1 = q2) as -> by congruence. apply er2_ok. congruence.
  - apply IH. lia.
  - congruence.
Qed.

Lemma lobj_nix g d1 d2 : forall fuel l p, length l <= length d1 -> length l <= length d2 ->
  er2 (lobj fuel g d1 l p) = er2 (lobj fuel g d2 l p).
Proof.
  induction fuel as [|fuel IH]; intros l p H1 H2; auto. cbn [lobj]. destruct l as [|c t]; auto.
  destruct (negb (c =? 123)%N); auto. cbn [length] in *.
  rewrite (lobj_loop_fuel _ d1 _ (S (length d1)) (S (length t))) by lia.
  rewrite (lobj_loop_fuel _ d2 _ (S (length d2)) (S (length t))) by lia.
  apply (lobj_loop_nix _ _ _ _ _ (length t)); [|lia]. intros r Hr. cbv zeta.
  destruct (is_modifier (pnext (p_extra p)) || is_multipath (pnext (p_extra p))); auto.
  set (q := pnext (p_extra p)).
  assert (Hx : er2 (match r with [] => Err EPanic | c :: _ => if (c =? 123)%N then lobj fuel g d1 r q else larr g d1 false r q end) =
               er2 (match r with [] => Err EPanic | c :: _ => if (c =? 123)%N then lobj fuel g d2 r q else larr g d2 false r q end)).
  { destruct r as [|c' t']; auto. destruct (c' =? 123)%N; [apply IH; lia|]. apply larr_nix, elems_nix. }
  destruct (er2_cases _ _ Hx) as [(x & y & q' & -> & -> & E)|(e & -> & ->)]; cbn [bind]; auto.
  rewrite (nix_exists _ _ E). destruct (v_exists y); auto. cbn [erd bind dnix]. rewrite E. reflexivity.
Qed.

(* ---------- parsed documents ---------- *)

(** The text of the parsed value of [w1 ++ render c ++ w2]. *)
Definition core (c : cst) (w2 : bytes) : bytes := if is_container c then render c ++ w2 else render c.

Lemma core_shape c w2 : ws w2 -> exists w, ws w /\ core c w2 = [] ++ render c ++ w.
Proof.
  intros H. unfold core. destruct (is_container c); [exists w2; auto|]. exists []. rewrite app_nil_r. split; auto. constructor.
Qed.

Lemma lstart_nix g w1 c w2 p : ws w1 -> wf c -> ws w2 ->
  er2 (lstart g (w1 ++ render c ++ w2) p) = er2 (lstart g (core c w2) p).
Proof.
  intros H1 Hc H2. destruct (is_container c) eqn:Ec.
  - unfold core. rewrite Ec. unfold lstart.
    pose proof (dropw_doc w1 c w2 H1 Hc) as D1. pose proof (dropw_doc [] c w2 (Forall_nil _) Hc) as D2.
    unfold doc in D1, D2. cbn [app] in D2. rewrite D1, D2.
    cbv zeta. destruct (render c ++ w2) as [|h t] eqn:E; auto. rewrite <- E.
    destruct (h =? 123)%N. { apply lobj_nix; rewrite ?app_length; lia. }
    destruct (h =? 91)%N; auto. apply larr_nix, elems_nix.
  - destruct (core_shape c w2 H2) as (w & Hw & ->).
    pose proof (lstart_scalar g w1 c w2 p H1 Hc Ec) as D1. pose proof (lstart_scalar g [] c w p (Forall_nil _) Hc Ec) as D2.
    unfold doc in D1, D2. rewrite D1, D2. reflexivity.
Qed.

Lemma lines_nix w1 c w2 : ws w1 -> wf c -> ws w2 ->
  map nix (elems (w1 ++ render c ++ w2) true (w1 ++ render c ++ w2)) = map nix (elems (core c w2) true (core c w2)).
Proof.
  intros H1 Hc H2. assert (Hf : forall w, ws w -> follow w) by (intros w Hw; destruct Hw; simpl; auto; left; auto).
  assert (Hi : forall w, ws w -> items w = []).
  { intros w Hw. rewrite <- (app_nil_r w). rewrite items_skip by (apply ws_skip_sep; auto). reflexivity. }
  assert (Hx : forall d w, ws w -> map nix (map (fval d) (items (render c ++ w))) = [nix (tval c None)]).
  { intros d w Hw. rewrite items_render by auto. rewrite Hi by auto. cbn [map]. rewrite fval_render by auto. reflexivity. }
  unfold elems, fe_items. rewrite items_skip by (apply ws_skip_sep; auto).
  destruct (core_shape c w2 H2) as (w & Hw & ->). rewrite Hx by auto. symmetry. apply Hx, Hw.
Qed.

Lemma lparse_nix w1 c w2 : ws w1 -> wf c -> ws w2 -> nix (lparse (w1 ++ render c ++ w2)) = nix (lparse (core c w2)).
Proof.
  intros H1 Hc H2. assert (Hf : forall w, ws w -> follow w) by (intros w Hw; destruct Hw; simpl; auto; left; auto).
  rewrite lparse_doc by auto. unfold core. destruct (is_container c) eqn:Ec.
  - pose proof (lparse_doc [] c w2 (Forall_nil _) Hc (Hf _ H2)) as D. cbn [app] in D. rewrite D, Ec. reflexivity.
  - pose proof (lparse_doc [] c [] (Forall_nil _) Hc I) as D. rewrite app_nil_r in D. cbn [app] in D. rewrite D, Ec. reflexivity.
Qed.

(* ---------- modifiers ---------- *)

Lemma run_ext_in {S A} (f g : S -> A -> R (S * bool)) l : (forall st x, In x l -> f st x = g st x) -> forall st, run f st l = run g st l.
Proof.
  induction l as [|x l IH]; intros H st; cbn [run]; auto. rewrite H by (left; auto). destruct (g st x) as [[st' b]|]; cbn [bind]; auto.
  destruct b; auto. apply IH. intros st'' y Hy. apply H. right. exact Hy.
Qed.

Lemma lparse_len json : length (v_json (lparse json)) <= length json.
Proof.
  rewrite lparse_slice. unfold lparse. cbv zeta. pose proof (suf_length _ _ (suf_dropw above_sp json)) as Hl.
  destruct (dropw above_sp json) as [|c t]; [cbn; lia|]. destruct (c =? 123)%N; [exact Hl|]. destruct (c =? 91)%N; [exact Hl|].
  unfold fval. destruct (linfo (c :: t) =? 0)%N; [cbn; lia|]. cbn [mkslice v_slice].
  destruct (ltext (c :: t)) as [|a u] eqn:El; [cbn; lia|]. rewrite <- El.
  pose proof (ltext_app (c :: t) ltac:(congruence)) as E. apply (f_equal (@length N)) in E. rewrite app_length in E. lia.
Qed.

(** The result of flatten depends on the text of the parsed value only. *)
Lemma mod_flatten_same g arg : forall f1 f2 j1 j2, length j1 < f1 -> length j2 < f2 -> v_kind (lparse j1) = KArray -> nix (lparse j1) = nix (lparse j2) ->
  mod_flatten f1 g j1 arg = mod_flatten f2 g j2 arg.
Proof.
  induction f1 as [|f1 IH]; intros [|f2] j1 j2 H1 H2 Hk Hn; try lia. cbn [mod_flatten]. rewrite !parse_spec. cbn [bind].
  pose proof (veq_kind _ _ (nix_veq _ _ Hn)) as Hk2. pose proof (nix_json _ _ Hn) as Hj. pose proof (nix_exists _ _ Hn) as He.
  pose proof (lparse_len j1) as L1. pose proof (lparse_len j2) as L2.
  set (r1 := lparse j1) in *. set (r2 := lparse j2) in *. rewrite <- Hk2, Hk. change (negb (kind_eqb KArray KArray)) with false. cbv iota.
  destruct (g arg s_deep) as [dv|e]; cbn [bind]; auto. destruct (v_bool dv) as [deep|e]; cbn [bind]; auto.
  rewrite !v_each_spec, <- Hk2, Hk, <- He, <- Hj. destruct (v_exists r1) eqn:Ee; cbn [negb]; auto.
  match goal with |- (' p <- run ?f ?s ?l ;; _) = (' q <- run ?h _ _ ;; _) => rewrite (run_ext_in f h l); auto end.
  intros [o n] v Hv. apply in_map_iff in Hv as (x & <- & Hx). apply items_suf in Hx as (Hx & Hne & Hex).
  rewrite <- (fval_exists (v_json r1)) in Hex. destruct (fval_json _ _ Hex) as [Ej Hnx]. set (v := fval (v_json r1) x) in *.
  destruct (kind_eqb (v_kind v) KArray) eqn:Ekv; auto. destruct deep; auto.
  assert (Hlen : S (length (v_json v)) <= length (v_json r1)).
  { rewrite Ej. pose proof (suf_length _ _ Hx) as Hxl. pose proof (ltext_app x Hnx) as E. apply (f_equal (@length N)) in E. rewrite app_length in E.
    unfold v_exists in Ee. destruct (v_json r1); [discriminate|]. cbn [tl length] in *. lia. }
  assert (Hlen2 : length (v_json r1) <= length j2) by (rewrite Hj; exact L2).
  destruct (kind_eqb (v_kind (lparse (v_json v))) KArray) eqn:Ekl.
  - rewrite (IH f2 (v_json v) (v_json v)); auto; try lia. destruct (v_kind (lparse (v_json v))); try discriminate; reflexivity.
  - destruct f1 as [|f1]; [lia|]. destruct f2 as [|f2]; [lia|]. cbn [mod_flatten]. rewrite !parse_spec. cbn [bind]. rewrite Ekl. reflexivity.
Qed.

Lemma doc_valid w1 c w2 : ws w1 -> wf c -> ws w2 -> valid (w1 ++ render c ++ w2) = Ok true.
Proof.
  intros H1 Hc H2. apply valid_true_iff. exists w1, (render c), w2. repeat split; auto. apply json_value_cst. exists c. auto.
Qed.

Lemma mod_pretty_same g d1 d2 t arg : reads d1 t -> reads d2 t -> mod_pretty g d1 arg = mod_pretty g d2 arg.
Proof.
  intros H1 H2. unfold mod_pretty. destruct arg as [|h u]; [apply (pretty_same _ _ _ _ H1 H2)|].
  repeat (apply bind_ext; auto; intros ? _). apply (pretty_same _ _ _ _ H1 H2).
Qed.

Lemma mod_apply_nix g name arg w1 c w2 : ws w1 -> wf c -> ws w2 ->
  er (out <- mod_apply g name (w1 ++ render c ++ w2) arg ;; Ok (lparse out)) = er (out <- mod_apply g name (core c w2) arg ;; Ok (lparse out)).
Proof.
  intros H1 Hc H2. pose proof (lparse_nix w1 c w2 H1 Hc H2) as Hp. destruct (core_shape c w2 H2) as (w & Hw & Ew).
  pose proof (veq_kind _ _ (nix_veq _ _ Hp)) as Hk.
  unfold mod_apply.
  destruct (beq name n_this). { apply er_ok, Hp. }
  destruct (beq name n_reverse). { rewrite Ew, !reverse_doc by (auto; constructor). reflexivity. }
  destruct (beq name n_ugly). { rewrite Ew, !ugly_doc by (auto; constructor). reflexivity. }
  destruct (beq name n_pretty).
  { rewrite (mod_pretty_same g (w1 ++ render c ++ w2) (core c w2) (erase c)); auto.
    - exists w1, c, w2. auto.
    - exists [], c, w. repeat split; auto; constructor. }
  destruct (beq name n_valid).
  { unfold mod_valid. rewrite doc_valid by auto. replace (valid (core c w2)) with (@Ok bool true) by (rewrite Ew, doc_valid; auto; constructor).
    apply er_ok, Hp. }
  destruct (beq name n_flatten).
  { destruct (kind_eqb (v_kind (lparse (w1 ++ render c ++ w2))) KArray) eqn:Ek.
    - rewrite (mod_flatten_same g arg _ (S (length (core c w2))) _ (core c w2)); auto.
      destruct (v_kind (lparse (w1 ++ render c ++ w2))); try discriminate; reflexivity.
    - cbn [mod_flatten]. rewrite !parse_spec. cbn [bind]. rewrite <- Hk, Ek. apply er_ok, Hp. }
  destruct (beq name n_join); [|reflexivity].
  unfold mod_join. rewrite !parse_spec. cbn [bind]. rewrite <- Hk.
  destruct (negb (kind_eqb (v_kind (lparse (w1 ++ render c ++ w2))) KArray)) eqn:Ek; [apply er_ok, Hp|].
  rewrite !v_each_spec, <- Hk, <- (nix_exists _ _ Hp), <- (nix_json _ _ Hp).
  destruct (g arg s_preserve) as [pv|e]; cbn [bind]; auto. destruct (v_bool pv) as [pr|e]; cbn [bind]; auto.
  destruct (v_kind (lparse (w1 ++ render c ++ w2))); try discriminate. destruct pr; reflexivity.
Qed.

Lemma mod_exec_nix g w1 c w2 p : ws w1 -> wf c -> ws w2 ->
  er2 (mod_exec g (w1 ++ render c ++ w2) p) = er2 (mod_exec g (core c w2) p).
Proof.
  intros H1 Hc H2. unfold mod_exec.
  match goal with |- context [' _ <- ?m ;; _] => destruct m as [[name arg]|e] end; cbn [bind]; auto.
  pose proof (mod_apply_nix g name arg w1 c w2 H1 Hc H2) as H.
  destruct (mod_apply g name (w1 ++ render c ++ w2) arg) as [o1|e1], (mod_apply g name (core c w2) arg) as [o2|e2]; cbn [bind er] in H |- *; try discriminate.
  - rewrite !parse_spec. cbn [bind]. apply er2_ok, nix_into. congruence.
  - cbn [er2 bind]. congruence.
Qed.

Section Multi.
Variables (d1 d2 : bytes) (n : nat).
Hypothesis IH : forall q, length q < n -> er (get d1 q) = er (get d2 q).

Lemma multi_arr_nix cs : Forall (fun kp => length (snd kp) < n) cs -> forall st,
  multi_arr get d1 cs st = multi_arr get d2 cs st.
Proof using IH.
  induction 1 as [|[k q] cs H _ IHc]; intros st; auto. cbn [multi_arr]. cbn [snd] in H.
  destruct (er_cases _ _ (IH q H)) as [(x & y & -> & -> & E)|(e & -> & ->)]; cbn [bind]; auto.
  rewrite (nix_push st x y E). apply IHc.
Qed.
Lemma multi_obj_nix cs : Forall (fun kp => length (snd kp) < n) cs -> forall st,
  multi_obj get d1 cs st = multi_obj get d2 cs st.
Proof using IH.
  induction 1 as [|[k q] cs H _ IHc]; intros st; auto. cbn [multi_obj]. cbn [snd] in H.
  destruct (er_cases _ _ (IH q H)) as [(x & y & -> & -> & E)|(e & -> & ->)]; cbn [bind]; auto.
  rewrite (nix_exists x y E), (nix_json x y E). destruct st as [out ix]. apply IHc.
Qed.
Lemma multi_exec_nix p : length (p_comp p) <= n -> multi_exec get d1 p = multi_exec get d2 p.
Proof using IH.
  intros Hp. unfold multi_exec.
  assert (Hc : forall cs, each_comp (p_comp p) = Ok cs -> Forall (fun kp => length (snd kp) < n) cs).
  { intros cs H. apply each_comp_short in H. eapply Forall_impl; [|exact H]. intros kp [_ Hl]. lia. }
  apply bind_ext; auto. intros a _. apply bind_ext; auto. intros l _. apply bind_ext; auto. intros z _.
  destruct (a =? cLBRK)%N.
  - destruct (negb (z =? cRBRK)%N); auto. apply bind_ext; auto. intros cs Hcs. rewrite (multi_arr_nix cs); auto.
  - destruct ((a =? cLBRC)%N && negb (z =? cRBRC)%N); auto. apply bind_ext; auto. intros cs Hcs. rewrite (multi_obj_nix cs); auto.
Qed.
End Multi.

Lemma get_sim w1 c w2 : ws w1 -> wf c -> ws w2 -> forall p, er (get (w1 ++ render c ++ w2) p) = er (get (core c w2) p).
Proof.
  intros H1 Hc H2 p. induction p as [p IH] using (induction_ltof1 _ (@length N)). unfold ltof in IH.
  rewrite !get_spec. destruct (split_lines p) as [lines text] eqn:Es.
  assert (Ht : length text <= length p).
  { unfold split_lines in Es. destruct p as [|a [|b t]]; try (injection Es as _ <-; auto; fail).
    destruct ((a =? cDOT) && (b =? cDOT))%N; injection Es as _ <-; cbn [length]; lia. }
  assert (H : er2 (lget_first get (w1 ++ render c ++ w2) lines (pnext text)) = er2 (lget_first get (core c w2) lines (pnext text))).
  { unfold lget_first. destruct lines; [apply larr_nix, lines_nix; auto|].
    destruct (is_modifier (pnext text)); [apply mod_exec_nix; auto|].
    destruct (is_multipath (pnext text)); [|apply lstart_nix; auto].
    rewrite (multi_exec_nix (w1 ++ render c ++ w2) (core c w2) (length p) IH); auto.
    destruct (ps_prefix _ _ (pnext_shape text)) as (t & E). apply (f_equal (@length N)) in E. rewrite app_length in E. lia. }
  destruct (er2_cases _ _ H) as [(x & y & q & -> & -> & E)|(e & -> & ->)]; cbn [bind]; auto.
  destruct (negb (p_more q)); [apply er_ok, E|]. apply v_get_nix, E.
Qed.

(** Looking a path up in the parsed value, in its text, and in the document. *)
Lemma parse_get json p : valid json = Ok true -> exists u, parse json = Ok u /\ er (v_get u p) = er (get json p).
Proof.
  intros Hv. destruct (P_Taken.valid_doc json Hv) as (w1 & c & w2 & -> & H1 & Hc & H2). unfold doc.
  exists (lparse (w1 ++ render c ++ w2)). split; [apply parse_spec|]. rewrite get_sim by auto.
  destruct (parse_presents w1 c w2 H1 Hc H2) as [Hp Hj]. fold (core c w2) in Hj.
  unfold v_get, v_get_with. pose proof (lparse_slice (w1 ++ render c ++ w2)) as Es. rewrite <- Es, Hj.
  assert (Hne : core c w2 <> []).
  { destruct (core_shape c w2 H2) as (w & _ & ->). destruct (render_head c Hc) as (h & t & -> & _). discriminate. }
  destruct (core c w2) as [|h t]; [congruence|]. destruct (get (h :: t) p) as [r|e]; reflexivity.
Qed.

(** The options of the pretty printer: chains of calls, wide lines. *)
From Coq Require Import Permutation Sorted.
From Verif Require Import P_Base P_Json P_Tree P_POut P_Layout S_Layout S_Opts M_Pretty M_Opts.

Lemma calls_asked cs : forall w p i b,
  calls cs (mkOpts (usize_as_i64 w) p i b)
  = mkOpts (usize_as_i64 (asked the_width w cs)) (asked the_prefix p cs) (asked the_indent i cs) (asked the_sorting b cs).
Proof.
  induction cs as [|c cs IH]; intros w p i b; [reflexivity|].
  unfold calls. cbn [fold_left]. destruct c; cbn [call asked the_width the_prefix the_indent the_sorting];
    unfold opts_width, opts_prefix, opts_indent, opts_sort_keys; cbn [o_width o_prefix o_indent o_sort]; apply IH.
Qed.

Lemma calls_new cs :
  calls cs opts_new
  = mkOpts (usize_as_i64 (asked the_width 80%N cs)) (asked the_prefix [] cs) (asked the_indent [32; 32]%N cs) (asked the_sorting false cs).
Proof. exact (calls_asked cs 80%N [] [32; 32]%N false). Qed.

Lemma calls_layout cs s t : reads s t -> height t < 500 -> (asked the_width 80 cs < 2 ^ 63)%N ->
  opts_pretty (calls cs opts_new) s
  = Ok (page (Z.of_N (asked the_width 80%N cs)) (asked the_prefix [] cs) (asked the_indent [32; 32]%N cs) (asked the_sorting false cs) t).
Proof.
  intros Hr Hh Hw. unfold opts_pretty. rewrite (pretty_layout s t _ Hr Hh), calls_new. cbn [o_width o_prefix o_indent o_sort].
  unfold usize_as_i64. rewrite (proj2 (N.ltb_lt _ _) Hw). reflexivity.
Qed.

(** Without a positive width nothing fits, whatever the width is. *)
Lemma fits_none w t col : (w <= 0)%Z -> fits w t col = false.
Proof. intros H. unfold fits. destruct (0 <? w)%Z eqn:E; [apply Z.ltb_lt in E; lia|]. rewrite andb_false_r. reflexivity. Qed.

Lemma layout_neg w w' prefix indent sort : (w <= 0)%Z -> (w' <= 0)%Z ->
  forall t n col, layout w prefix indent sort t n col = layout w' prefix indent sort t n col.
Proof.
  intros H H'. induction t as [ | | |x|b|es IH|ms IH] using tree_ind'; intros n col; try reflexivity.
  - destruct es as [|e es]; [reflexivity|]. cbn [layout]. rewrite !(fits_none _ _ _ H), !(fits_none _ _ _ H').
    inversion IH as [|? ? He Hes]; subst. rewrite He. do 3 f_equal. f_equal.
    apply map_ext_in. intros x Hx. rewrite (proj1 (Forall_forall _ _) Hes x Hx). reflexivity.
  - destruct ms as [|m ms]; [reflexivity|]. cbn [layout].
    match goal with |- _ :: commas (map snd (if _ then sort_members ?a else _)) ++ _ = _ :: commas (map snd (if _ then sort_members ?b else _)) ++ _ =>
      assert (E : a = b) by (apply map_ext_in; intros [k v] Hx; rewrite (proj1 (Forall_forall _ _) IH _ Hx); reflexivity); rewrite E; reflexivity end.
Qed.

Lemma calls_wide cs s t : reads s t -> height t < 500 -> (2 ^ 63 <= asked the_width 80 cs < 2 ^ 64)%N ->
  opts_pretty (calls cs opts_new) s
  = Ok (page 0 (asked the_prefix [] cs) (asked the_indent [32; 32]%N cs) (asked the_sorting false cs) t).
Proof.
  intros Hr Hh Hw. unfold opts_pretty. rewrite (pretty_layout s t _ Hr Hh), calls_new. cbn [o_width o_prefix o_indent o_sort].
  unfold page. do 3 f_equal. apply layout_neg; [|lia]. unfold usize_as_i64.
  destruct (N.ltb_spec (asked the_width 80%N cs) (2 ^ 63)); [lia|].
  assert (Z.of_N (asked the_width 80%N cs) < 2 ^ 64)%Z by (change (2 ^ 64)%Z with (Z.of_N (2 ^ 64)); lia). lia.
Qed.

(* ---------- more width, fewer lines ---------- *)

Lemma breaks_app a b : breaks (a ++ b) = breaks a + breaks b.
Proof. apply count_occ_app. Qed.
Lemma breaks_cons c a : breaks (c :: a) = breaks [c] + breaks a.
Proof. exact (breaks_app [c] a). Qed.
Lemma breaks_line p i n x : breaks (line p i n x) = 1 + breaks (margin p i n) + breaks x.
Proof. unfold line. rewrite breaks_cons, breaks_app. reflexivity. Qed.
Definition total (l : list text) : nat := list_sum (map breaks l).
Lemma breaks_commas l : breaks (commas l) = total l.
Proof.
  induction l as [|x l IH]; [reflexivity|]. destruct l as [|y l].
  - unfold total. cbn [commas spaced map list_sum fold_right]. lia.
  - change (commas (x :: y :: l)) with (x ++ 44%N :: commas (y :: l)). rewrite breaks_app, breaks_cons, IH.
    unfold total. cbn [map list_sum fold_right]. change (breaks [44%N]) with 0. lia.
Qed.
Lemma breaks_spaced l : breaks (spaced l) = total l.
Proof.
  induction l as [|x l IH]; [reflexivity|]. destruct l as [|y l].
  - unfold total. cbn [commas spaced map list_sum fold_right]. lia.
  - change (spaced (x :: y :: l)) with (x ++ [44; 32]%N ++ spaced (y :: l)). rewrite !breaks_app, IH.
    unfold total. cbn [map list_sum fold_right]. change (breaks [44; 32]%N) with 0. lia.
Qed.
Lemma total_perm l l' : Permutation l l' -> total l = total l'.
Proof. unfold total. induction 1; cbn [map list_sum fold_right] in *; unfold list_sum in *; lia. Qed.
Lemma total_map {A} (f g : A -> text) l : Forall (fun x => breaks (f x) <= breaks (g x)) l -> total (map f l) <= total (map g l).
Proof. unfold total. induction 1; cbn [map list_sum fold_right] in *; unfold list_sum in *; lia. Qed.

Lemma one_line_least w prefix indent sort : forall t n col, objectless t = true ->
  breaks (one_line t) <= breaks (layout w prefix indent sort t n col).
Proof.
  induction t as [ | | |x|b|es IH|ms IH] using tree_ind'; intros n col Ho; try reflexivity; try discriminate.
  destruct es as [|e es]; [reflexivity|]. cbn [layout].
  destruct (fits w (TArr (e :: es)) col); [reflexivity|].
  change (one_line (TArr (e :: es))) with (91%N :: spaced (map one_line (e :: es)) ++ [93%N]).
  rewrite breaks_cons, breaks_app, breaks_spaced. rewrite (breaks_cons 91%N (_ ++ _)), breaks_app, breaks_commas.
  cbn [objectless] in Ho. rewrite forallb_forall in Ho.
  match goal with |- context [total (?a :: map ?g es)] => assert (total (map one_line (e :: es)) <= total (a :: map g es)) end.
  { unfold total. cbn [map list_sum fold_right]. apply Nat.add_le_mono.
    - unfold line. rewrite breaks_cons, breaks_app. inversion IH as [|? ? He Hes]; subst.
      assert (G := He (S n) (Z.of_nat (length (margin prefix indent (S n))) + 1)%Z (Ho e (or_introl eq_refl))). lia.
    - apply (total_map one_line). rewrite Forall_forall. intros x Hx. unfold line. rewrite breaks_cons, breaks_app.
      assert (G := proj1 (Forall_forall _ _) IH x (or_intror Hx) (S n) (Z.of_nat (length (margin prefix indent (S n)))) (Ho x (or_intror Hx))). lia. }
  change (breaks [93%N]) with 0. lia.
Qed.

Lemma layout_wider w w' prefix indent sort : (w <= w')%Z ->
  forall t n col, breaks (layout w' prefix indent sort t n col) <= breaks (layout w prefix indent sort t n col).
Proof.
  intros Hw. induction t as [ | | |x|b|es IH|ms IH] using tree_ind'; intros n col; try reflexivity.
  - destruct es as [|e es]; [reflexivity|].
    destruct (fits w' (TArr (e :: es)) col) eqn:F'.
    + assert (Ho : objectless (TArr (e :: es)) = true) by (unfold fits in F'; apply andb_true_iff in F' as (F' & _); apply andb_true_iff in F' as (F' & _); exact F').
      assert (E : layout w' prefix indent sort (TArr (e :: es)) n col = one_line (TArr (e :: es))) by (cbn [layout]; rewrite F'; reflexivity).
      rewrite E. apply one_line_least, Ho.
    + assert (F : fits w (TArr (e :: es)) col = false).
      { revert F'. unfold fits. destruct (objectless _); [|auto]. cbn [andb].
        destruct (Z.ltb_spec 0 w); [|auto]. destruct (Z.ltb_spec 0 w'); [|lia]. cbn [andb].
        destruct (Z.leb_spec (col + Z.max 4 (Z.of_nat (length (one_line (TArr (e :: es)))))) w'); [discriminate|]. intros _.
        apply Z.leb_gt. lia. }
      cbn [layout]. rewrite F, F'. rewrite (breaks_cons 91%N), (breaks_cons 91%N (commas _ ++ _)), !breaks_app, !breaks_commas.
      apply Nat.add_le_mono_l. apply Nat.add_le_mono_r. unfold total. cbn [map list_sum fold_right].
      inversion IH as [|? ? He Hes]; subst. apply Nat.add_le_mono.
      * rewrite !breaks_line, ?breaks_app.
        assert (G := He (S n) (Z.of_nat (length (margin prefix indent (S n))) + 1)%Z). lia.
      * apply (total_map _ _ es). rewrite Forall_forall. intros x Hx. rewrite !breaks_line, ?breaks_app.
        assert (G := proj1 (Forall_forall _ _) Hes x Hx (S n) (Z.of_nat (length (margin prefix indent (S n))))). lia.
  - destruct ms as [|m0 ms0]; [reflexivity|]. set (ms := m0 :: ms0) in *.
    change (layout w' prefix indent sort (TObj ms) n col) with
      (let lines := map (fun m => match m with (k, v) => let head := quoted k ++ [0x3A; 0x20]%N in
        (k, line prefix indent (S n) (head ++ layout w' prefix indent sort v (S n) (Z.of_nat (length (margin prefix indent (S n) ++ head)) + 1))) end) ms in
      0x7B%N :: commas (map snd (if sort then sort_members lines else lines)) ++ line prefix indent n [0x7D%N]).
    change (layout w prefix indent sort (TObj ms) n col) with
      (let lines := map (fun m => match m with (k, v) => let head := quoted k ++ [0x3A; 0x20]%N in
        (k, line prefix indent (S n) (head ++ layout w prefix indent sort v (S n) (Z.of_nat (length (margin prefix indent (S n) ++ head)) + 1))) end) ms in
      0x7B%N :: commas (map snd (if sort then sort_members lines else lines)) ++ line prefix indent n [0x7D%N]).
    cbv zeta.
    assert (S0 : forall l : list (text * text), total (map snd (if sort then sort_members l else l)) = total (map snd l)).
    { intros l. destruct sort; [|reflexivity]. symmetry. apply total_perm, Permutation_map, sort_perm. }
    rewrite (breaks_cons 123%N), (breaks_cons 123%N (commas _ ++ _)), !breaks_app, !breaks_commas, !S0, !map_map.
    apply Nat.add_le_mono_l. apply Nat.add_le_mono_r. apply total_map. rewrite Forall_forall. intros [k v] Hx. cbn [snd].
    rewrite !breaks_line, ?breaks_app.
    assert (G := proj1 (Forall_forall _ _) IH _ Hx). cbn [snd] in G.
    assert (G' := G (S n) (Z.of_nat (length (margin prefix indent (S n) ++ quoted k ++ [58; 32]%N)) + 1)%Z). lia.
Qed.

Lemma page_wider w w' prefix indent sort t : (w <= w')%Z ->
  breaks (page w' prefix indent sort t) <= breaks (page w prefix indent sort t).
Proof. intros H. unfold page. rewrite !breaks_app. assert (G := layout_wider w w' prefix indent sort H t 0 (Z.of_nat (length prefix))). lia. Qed.

Lemma pretty_wider s t w w' o : reads s t -> height t < 500 -> (w <= w')%N -> (w' < 2 ^ 63)%N ->
  exists a b, opts_pretty (opts_width o w) s = Ok a /\ opts_pretty (opts_width o w') s = Ok b /\ breaks b <= breaks a.
Proof.
  intros Hr Hh Hw Hb. unfold opts_pretty. do 2 rewrite (pretty_layout s t _ Hr Hh). eexists. eexists. split; [reflexivity|]. split; [reflexivity|].
  cbn [opts_width o_width o_prefix o_indent o_sort]. apply page_wider. unfold usize_as_i64.
  rewrite (proj2 (N.ltb_lt _ _) Hb). rewrite (proj2 (N.ltb_lt w _)) by lia. lia.
Qed.

Lemma calls_order cs cs' s :
  asked the_width 80%N cs = asked the_width 80%N cs' -> asked the_prefix [] cs = asked the_prefix [] cs' ->
  asked the_indent [32; 32]%N cs = asked the_indent [32; 32]%N cs' -> asked the_sorting false cs = asked the_sorting false cs' ->
  opts_pretty (calls cs opts_new) s = opts_pretty (calls cs' opts_new) s.
Proof. intros A B C D. rewrite !calls_new, A, B, C, D. reflexivity. Qed.

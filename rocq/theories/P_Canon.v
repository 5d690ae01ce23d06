(** Sorted printing as a normal form. *)
From Coq Require Import Permutation Sorted.
From Verif Require Import P_Base P_Json P_Valid P_ValidSpec P_Str P_Scan P_Each P_Doc P_Path P_Ugly P_Pretty P_Tree P_PTree P_Layout
  P_POut P_Sloppy M_Pretty M_Valid S_Json S_Path S_Tree S_Layout S_Sloppy S_Canon.

Theorem reads_once s t t' : reads s t -> reads s t' -> t = t'.
Proof.
  intros H H'. destruct (reads_sloppy _ _ H) as (r & _ & Hs). destruct (reads_sloppy _ _ H') as (r' & _ & Hs').
  exact (proj1 (proj1 sloppy_once _ _ _ Hs _ _ Hs')).
Qed.

(* ---------- sorting ---------- *)

Lemma called_named {A} k (l : list (bytes * A)) : called k l = map snd (filter (named k) l).
Proof.
  unfold called. f_equal. apply filter_ext. intros m. pose proof (named_spec k m) as H.
  destruct (list_eq_dec N.eq_dec (fst m) k), (named k m); intuition congruence.
Qed.
Lemma filter_called {A} k (l : list (bytes * A)) : filter (named k) l = map (fun v => (k, v)) (called k l).
Proof.
  rewrite called_named, map_map. induction l as [|m l IH]; auto. cbn [filter]. destruct (named k m) eqn:E; auto.
  cbn [map]. f_equal; auto. apply named_spec in E. destruct m; cbn [fst snd] in *. subst; auto.
Qed.

Lemma sorted_determined {A} (l : list (bytes * A)) : forall l', StronglySorted le_member l -> StronglySorted le_member l' ->
  (forall k, filter (named k) l = filter (named k) l') -> l = l'.
Proof.
  assert (Hself : forall m : bytes * A, named (fst m) m = true) by (intros m; apply named_spec; auto).
  assert (Hin : forall l l' : list (bytes * A), (forall k, filter (named k) l = filter (named k) l') -> forall m, In m l -> In m l').
  { intros a b H m Hm. assert (Hm' : In m (filter (named (fst m)) a)) by (apply filter_In; auto).
    rewrite H in Hm'. apply filter_In in Hm'. tauto. }
  assert (Hle : forall (x : bytes * A) l y, StronglySorted le_member (x :: l) -> In y (x :: l) -> le_text (fst x) (fst y) = true).
  { intros x a y Hs [->|Hy].
    - pose proof (Hself y) as H. unfold named in H. apply andb_prop in H. tauto.
    - inversion Hs as [|? ? _ Hf]; subst. rewrite Forall_forall in Hf. apply Hf; auto. }
  induction l as [|x l IH]; intros l' Hs Hs' H.
  - destruct l' as [|y l']; auto. specialize (H (fst y)). cbn [filter] in H. rewrite Hself in H. discriminate.
  - destruct l' as [|y l'].
    { specialize (H (fst x)). cbn [filter] in H. rewrite Hself in H. discriminate. }
    assert (Exy : fst x = fst y).
    { apply le_text_antisym.
      - apply (Hle x l); auto. apply (Hin (y :: l') (x :: l)); [intros; symmetry; apply H | left; auto].
      - apply (Hle y l'); auto. apply (Hin (x :: l) (y :: l')); [exact H | left; auto]. }
    assert (E : x = y).
    { pose proof (H (fst x)) as Hx. cbn [filter] in Hx. rewrite Hself in Hx. rewrite Exy, Hself in Hx. injection Hx as Hx _. exact Hx. }
    subst y. f_equal. apply IH.
    + inversion Hs; auto.
    + inversion Hs'; auto.
    + intros k. pose proof (H k) as Hk. cbn [filter] in Hk. destruct (named k x); [injection Hk as Hk|]; exact Hk.
Qed.
Lemma sort_same {A} (l l' : list (bytes * A)) : (forall k, called k l = called k l') -> sort_members l = sort_members l'.
Proof.
  intros H. apply sorted_determined; try apply sort_sorted. intros k. rewrite !sort_stable, !filter_called, H. reflexivity.
Qed.
Lemma sort_same_inv {A} (l l' : list (bytes * A)) : sort_members l = sort_members l' -> forall k, called k l = called k l'.
Proof. intros H k. rewrite !called_named, <- (sort_stable k l), H, sort_stable. reflexivity. Qed.
Lemma sort_twice {A} (l : list (bytes * A)) : sort_members (sort_members l) = sort_members l.
Proof. apply sort_same. intros k. rewrite !called_named, sort_stable. reflexivity. Qed.

(** Sorting looks at the names only. *)
Definition keyed {A B} (h : bytes * A -> B) (l : list (bytes * A)) : list (bytes * B) := map (fun m => (fst m, h m)) l.
Lemma insert_keyed {A B} (h : bytes * A -> B) x l :
  keyed h (insert_member x l) = insert_member (fst x, h x) (keyed h l).
Proof.
  induction l as [|y l IH]; auto. cbn [insert_member keyed map fst]. fold (keyed h l). destruct (le_text (fst x) (fst y)); auto.
  cbn [keyed map]. f_equal. exact IH.
Qed.
Lemma sort_keyed {A B} (h : bytes * A -> B) l : keyed h (sort_members l) = sort_members (keyed h l).
Proof.
  induction l as [|x l IH]; auto.
  change (keyed h (insert_member x (sort_members l)) = insert_member (fst x, h x) (sort_members (keyed h l))).
  rewrite insert_keyed, IH. reflexivity.
Qed.
Lemma called_keyed {A B} (h : A -> B) k l : called k (keyed (fun m => h (snd m)) l) = map h (called k l).
Proof.
  unfold called, keyed. induction l as [|m l IH]; auto. cbn [map filter fst]. destruct (list_eq_dec N.eq_dec (fst m) k); auto.
  cbn [map snd]. f_equal. exact IH.
Qed.
Lemma called_in {A} k (l : list (bytes * A)) v : In v (called k l) -> exists m, In m l /\ snd m = v.
Proof. unfold called. intros H. apply in_map_iff in H as (m & <- & Hm). apply filter_In in Hm. exists m. tauto. Qed.

Definition smembers (ms : list (bytes * tree)) : list (bytes * tree) := keyed (fun m => sorted (snd m)) ms.
Lemma sorted_obj ms : sorted (TObj ms) = TObj (sort_members (smembers ms)).
Proof.
  cbn [sorted]. f_equal. f_equal. unfold smembers, keyed. apply map_ext. intros [k v]. reflexivity.
Qed.

Lemma alike_sorted t : forall t', alike t t' -> sorted t = sorted t'.
Proof.
  induction t as [ | | |x|b|es IH|ms IH] using tree_ind'; intros t' H; inversion H as [|? es' Hes|? ms' Hms]; subst; auto.
  - cbn [sorted]. f_equal. clear H. induction Hes as [|e e' es es' He Hes IHes]; auto. cbn [map]. inversion IH; subst.
    f_equal; auto.
  - rewrite !sorted_obj. f_equal. apply sort_same. intros k. unfold smembers. rewrite !called_keyed. specialize (Hms k).
    assert (Hin : forall v, In v (called k ms) -> forall t', alike v t' -> sorted v = sorted t').
    { intros v Hv. apply called_in in Hv as (m & Hm & <-). rewrite Forall_forall in IH. apply IH; auto. }
    clear - Hms Hin. induction Hms as [|v v' l l' Hv Hl IHl]; auto. cbn [map]. f_equal.
    + apply Hin; [left; auto | auto].
    + apply IHl. intros u Hu. apply Hin. right; auto.
Qed.

Lemma sorted_alike t : forall t', sorted t = sorted t' -> alike t t'.
Proof.
  assert (Hmap : forall l l', (forall v, In v l -> forall t', sorted v = sorted t' -> alike v t') -> map sorted l = map sorted l' -> Forall2 alike l l').
  { induction l as [|v l IHl]; intros [|v' l'] H E; try discriminate; constructor.
    - apply H; [left; auto|]. injection E; auto.
    - apply IHl; [intros u Hu; apply H; right; auto|]. injection E; auto. }
  induction t as [ | | |x|b|es IH|ms IH] using tree_ind'; intros t' H; destruct t' as [ | | |x'|b'|es'|ms']; rewrite ?sorted_obj in H; try discriminate; cbn [sorted] in H; try (injection H as ->); try apply al_same.
  - injection H as H. apply al_array. apply Hmap; auto. rewrite Forall_forall in IH. exact IH.
  - injection H as H. apply al_object. intros k. apply Hmap.
    + intros v Hv. apply called_in in Hv as (m & Hm & <-). rewrite Forall_forall in IH. apply IH; auto.
    + pose proof (sort_same_inv _ _ H k) as Hk. unfold smembers in Hk. rewrite !called_keyed in Hk. exact Hk.
Qed.

(* ---------- the layout of the sorted document ---------- *)

Lemma sorted_objectless t : objectless (sorted t) = objectless t /\ (objectless t = true -> sorted t = t).
Proof.
  induction t as [ | | |x|b|es IH|ms IH] using tree_ind'; auto.
  - cbn [sorted objectless]. induction IH as [|e es [H1 H2] _ [IH1 IH2]]; auto. cbn [map forallb]. rewrite H1, IH1. split; auto.
    intros H. apply andb_prop in H as [Ha Hb]. f_equal. rewrite (H2 Ha). f_equal. specialize (IH2 Hb). injection IH2; auto.
  - split; [reflexivity | discriminate].
Qed.

Section canon.
Variables (width : Z) (prefix indent : bytes).
Notation LAYS := (layout width prefix indent true).

Definition mline (n : nat) (m : bytes * tree) : bytes :=
  let head := quoted (fst m) ++ [58; 32]%N in
  line prefix indent (S n) (head ++ LAYS (snd m) (S n) (Z.of_nat (length (margin prefix indent (S n) ++ head)) + 1)).
Lemma layout_obj ms n col : LAYS (TObj ms) n col =
  match ms with [] => [123; 125]%N | _ =>
    123%N :: commas (map snd (sort_members (keyed (mline n) ms))) ++ line prefix indent n [125%N] end.
Proof.
  destruct ms as [|m ms]; auto. cbn [layout]. repeat f_equal. unfold keyed. apply map_ext. intros [k v]. reflexivity.
Qed.

Lemma layout_sorted t : forall n col, LAYS (sorted t) n col = LAYS t n col.
Proof.
  induction t as [ | | |x|b|es IH|ms IH] using tree_ind'; auto.
  - intros n col. destruct (objectless (TArr es)) eqn:Eo.
    { rewrite (proj2 (sorted_objectless (TArr es)) Eo). reflexivity. }
    destruct es as [|e es]; [reflexivity|].
    assert (Ef : forall e es, objectless (TArr (e :: es)) = false -> LAYS (TArr (e :: es)) n col =
      let m := Z.of_nat (length (margin prefix indent (S n))) in
      91%N :: commas (line prefix indent (S n) (LAYS e (S n) (m + 1)) :: map (fun e => line prefix indent (S n) (LAYS e (S n) m)) es)
        ++ line prefix indent n [93%N]).
    { intros a l H. cbn [layout]. unfold fits. rewrite H. reflexivity. }
    rewrite (Ef e es Eo). cbn [sorted map]. rewrite Ef.
    2:{ rewrite <- Eo. change (TArr (sorted e :: map sorted es)) with (sorted (TArr (e :: es))). apply sorted_objectless. }
    cbv zeta. inversion IH as [|? ? He Hes]; subst. rewrite He. do 3 f_equal. f_equal. rewrite map_map.
    apply map_ext_Forall. revert Hes. apply Forall_impl. intros a Ha. rewrite Ha. reflexivity.
  - intros n col. rewrite sorted_obj, !layout_obj.
    assert (E : keyed (mline n) (sort_members (smembers ms)) = sort_members (keyed (mline n) ms)).
    { rewrite sort_keyed. f_equal. unfold smembers, keyed. rewrite map_map. cbn [fst]. apply map_ext_Forall.
      revert IH. apply Forall_impl. intros m Hm. unfold mline. cbn [fst snd]. rewrite Hm. reflexivity. }
    rewrite E, sort_twice.
    destruct ms as [|m ms]; [reflexivity|].
    destruct (sort_members (smembers (m :: ms))) as [|x l] eqn:Es; [|reflexivity].
    pose proof (sort_length (smembers (m :: ms))) as Hl. rewrite Es in Hl. discriminate.
Qed.
End canon.

Lemma page_sorted width prefix indent t : page width prefix indent true (sorted t) = page width prefix indent true t.
Proof. unfold page. rewrite layout_sorted. reflexivity. Qed.

Theorem alike_printed s s' t t' r r' o : sloppy s t r -> sloppy s' t' r' -> alike t t' -> height t < 500 -> height t' < 500 -> o_sort o = true ->
  pretty_options s o = pretty_options s' o.
Proof.
  intros Hs Hs' Ha Hh Hh' Ho. rewrite (sloppy_layout s t r o), (sloppy_layout s' t' r' o), Ho by auto.
  rewrite <- (page_sorted _ _ _ t), <- (page_sorted _ _ _ t'), (alike_sorted _ _ Ha). reflexivity.
Qed.

Theorem printed_alike s s' t t' o : reads s t -> reads s' t' -> height t < 500 -> height t' < 500 ->
  ws (o_prefix o) -> ws (o_indent o) -> o_sort o = true ->
  (pretty_options s o = pretty_options s' o <-> alike t t').
Proof.
  intros Hs Hs' Hh Hh' Hp Hi Ho. split.
  - intros E. destruct (pretty_sorts s t o) as (out & E1 & R1); auto. destruct (pretty_sorts s' t' o) as (out' & E2 & R2); auto.
    rewrite E1, E2 in E. injection E as <-. apply sorted_alike. eapply reads_once; eauto.
  - intros H. destruct (reads_sloppy _ _ Hs) as (r & _ & Hr). destruct (reads_sloppy _ _ Hs') as (r' & _ & Hr').
    exact (alike_printed s s' t t' r r' o Hr Hr' H Hh Hh' Ho).
Qed.

Lemma sorted_height t : height (sorted t) = height t.
Proof.
  induction t as [ | | |x|b|es IH|ms IH] using tree_ind'; auto.
  - cbn [sorted height]. f_equal. induction IH as [|e es He _ IHes]; auto. cbn [map fold_right]. rewrite He, IHes. reflexivity.
  - rewrite sorted_obj. cbn [height]. f_equal.
    assert (Hperm : forall l l' : list (bytes * tree), Permutation l l' ->
      fold_right (fun m n => Nat.max (match m with (_, v) => height v end) n) 0 l = fold_right (fun m n => Nat.max (match m with (_, v) => height v end) n) 0 l').
    { induction 1; cbn [fold_right]; try congruence; lia. }
    rewrite <- (Hperm _ _ (sort_perm (smembers ms))). unfold smembers, keyed.
    induction IH as [|[k v] l Hv _ IHl]; auto. cbn [map fold_right fst snd] in *. rewrite Hv, IHl. reflexivity.
Qed.

Theorem sorted_again s t o : reads s t -> height t < 500 -> ws (o_prefix o) -> ws (o_indent o) -> o_sort o = true ->
  exists out, pretty_options s o = Ok out /\ pretty_options out o = Ok out.
Proof.
  intros Hs Hh Hp Hi Ho. destruct (pretty_sorts s t o) as (out & E & R); auto. exists out. split; auto.
  rewrite <- E. destruct (reads_sloppy _ _ Hs) as (r & _ & Hr). destruct (reads_sloppy _ _ R) as (r' & _ & Hr').
  rewrite (sloppy_layout s t r o Hr Hh), (sloppy_layout out (sorted t) r' o Hr'), Ho by (rewrite sorted_height; auto).
  rewrite page_sorted. reflexivity.
Qed.

Theorem printed_same s s' t t' o : reads s t -> reads s' t' -> ws (o_prefix o) -> ws (o_indent o) -> o_sort o = false ->
  (pretty_options s o = pretty_options s' o <-> t = t').
Proof.
  intros Hs Hs' Hp Hi Ho. split.
  - intros E. destruct (pretty_reads_unsorted s t o) as (out & E1 & R1); auto. destruct (pretty_reads_unsorted s' t' o) as (out' & E2 & R2); auto.
    rewrite E1, E2 in E. injection E as <-. eapply reads_once; eauto.
  - intros <-. destruct Hs as (w1 & c & w2 & H1 & Hc & H2 & -> & Et). destruct Hs' as (w1' & c' & w2' & H1' & Hc' & H2' & -> & Et').
    rewrite !pretty_doc by auto. rewrite Et, Et'. reflexivity.
Qed.

Lemma called_once {A} k (l : list (bytes * A)) : NoDup (map fst l) -> length (called k l) <= 1.
Proof.
  unfold called. induction l as [|m l IH]; intros H; [cbn; lia|]. cbn [map] in H. inversion H as [|? ? Hn Hd]; subst. cbn [filter].
  destruct (list_eq_dec N.eq_dec (fst m) k) as [E|]; auto. cbn [map length].
  replace (filter _ l) with (@nil (bytes * A)); [cbn; lia|]. symmetry. clear IH H Hd. induction l as [|y l IHl]; auto. cbn [filter map] in *.
  destruct (list_eq_dec N.eq_dec (fst y) k) as [E'|].
  - destruct Hn. left. congruence.
  - apply IHl. intros Hi. apply Hn. right; auto.
Qed.
Lemma called_perm {A} k (l l' : list (bytes * A)) : Permutation l l' -> Permutation (called k l) (called k l').
Proof.
  unfold called. induction 1; auto.
  - cbn [filter]. destruct (list_eq_dec _ _ _); cbn [map]; auto.
  - cbn [filter]. destruct (list_eq_dec _ (fst x) _), (list_eq_dec _ (fst y) _); cbn [map]; auto. apply perm_swap.
  - eapply perm_trans; eauto.
Qed.
Theorem permuted_alike ms ms' : NoDup (map fst ms) -> Permutation ms ms' -> alike (TObj ms) (TObj ms').
Proof.
  intros Hn Hp. apply al_object. intros k. pose proof (called_once k ms Hn) as Hl. pose proof (called_perm k ms ms' Hp) as Hc.
  destruct (called k ms) as [|v [|? ?]]; cbn [length] in Hl; try lia.
  - apply Permutation_nil in Hc. rewrite Hc. constructor.
  - apply Permutation_length_1_inv in Hc. rewrite Hc. constructor; [apply al_same | constructor].
Qed.

(** Paths do not notice how strings are spelled. *)
From Coq Require Import Arith Lia List NArith ZArith Bool.
From Verif Require Import P_Base P_Json P_Valid P_ValidSpec P_Str P_Doc P_Each P_LGet P_Value P_GetArr P_Eval P_ModDoc P_Taken P_Again P_Total P_Laws P_Mixed P_Truth P_Query
  M_Util M_Num M_Scan M_Value M_Valid M_Get S_Json S_Str S_Get S_Path S_Query S_Tree S_Follow S_Mod S_Eval S_Api S_Taken S_Same S_Panic S_Truth S_Compose S_Said.
Import ListNotations.
Open Scope list_scope.
Open Scope nat_scope.

Definition cont (c : cst) : tree := content (erase c).
Lemma cont_arr w es : cont (CArr w es) = TArr (map (fun e => cont (i_val e)) es).
Proof. unfold cont. cbn [erase content]. rewrite map_map. f_equal. apply map_ext. intros [a v b]. reflexivity. Qed.
Lemma cont_obj w ms : cont (CObj w ms) = TObj (map (fun m => (said (m_key m), cont (m_val m))) ms).
Proof. unfold cont. cbn [erase content]. rewrite map_map. f_equal. apply map_ext. intros [a k b c v d]. reflexivity. Qed.
Lemma name_said m : name_of m = said (m_key m).
Proof. reflexivity. Qed.

Lemma map_Forall2 {A B C} (f : A -> C) (g : B -> C) : forall l l', map f l = map g l' -> Forall2 (fun x y => f x = g y) l l'.
Proof. induction l as [|x l IH]; intros [|y l'] E; try discriminate; constructor; injection E; auto. Qed.
Lemma Forall2_map_eq {A B C} (f : A -> C) (g : B -> C) l l' : Forall2 (fun x y => f x = g y) l l' -> map f l = map g l'.
Proof. induction 1; cbn; congruence. Qed.

Lemma F2_impl {A B} (P Q : A -> B -> Prop) l l' : (forall a b, P a b -> Q a b) -> Forall2 P l l' -> Forall2 Q l l'.
Proof. intros H. induction 1; constructor; auto. Qed.
Lemma F2_len {A B} (P : A -> B -> Prop) l l' : Forall2 P l l' -> length l = length l'.
Proof. induction 1; cbn; congruence. Qed.

Lemma cont_arr_inv w es c' : cont (CArr w es) = cont c' ->
  exists w' es', c' = CArr w' es' /\ Forall2 (fun e e' => cont (i_val e) = cont (i_val e')) es es'.
Proof.
  rewrite cont_arr. destruct c' as [ | | |n|b|w' es'|w' ms]; try discriminate.
  - rewrite cont_arr. intros [= E]. exists w', es'. split; [reflexivity|]. apply map_Forall2, E.
Qed.
Lemma cont_obj_inv w ms c' : cont (CObj w ms) = cont c' ->
  exists w' ms', c' = CObj w' ms' /\ Forall2 (fun m m' => name_of m = name_of m' /\ cont (m_val m) = cont (m_val m')) ms ms'.
Proof.
  rewrite cont_obj. destruct c' as [ | | |n|b|w' es|w' ms']; try discriminate.
  - rewrite cont_obj. intros [= E]. exists w', ms'. split; [reflexivity|].
    apply map_Forall2 in E. eapply F2_impl; [|exact E]. cbn. intros a b [= E1 E2]. rewrite !name_said. auto.
Qed.

Definition eqc (d d' : cst) : Prop := cont d = cont d' /\ wf d /\ wf d'.
Definition sim (o o' : option cst) : Prop :=
  match o, o' with None, None => True | Some d, Some d' => eqc d d' | _, _ => False end.
Definition sim2 (o o' : option (option cst)) : Prop :=
  match o, o' with None, None => True | Some d, Some d' => sim d d' | _, _ => False end.
Definition simE (e e' : ending (option cst)) : Prop :=
  match e, e' with Found a, Found b => sim a b | Stop, Stop => True | Go, Go => True | _, _ => False end.

Lemma eqc_items es es' : Forall2 (fun e e' => cont (i_val e) = cont (i_val e')) es es' -> Forall wf_item es -> Forall wf_item es' ->
  Forall2 eqc (map i_val es) (map i_val es').
Proof.
  induction 1 as [|e e' es es' E _ IH]; intros H H'; [constructor|]. inversion H; subst. inversion H'; subst. cbn [map].
  constructor; [|auto]. split; [exact E|]. destruct e, e'. cbn. inversion H2; inversion H4; auto.
Qed.

Section Scan.
Context (hit : text -> bool) (final : bool) (below : cst -> option (option cst)).
Hypothesis Hb : forall c c', eqc c c' -> sim2 (below c) (below c').

Lemma scan_sim : forall c c', eqc c c' -> simE (scan hit final below c) (scan hit final below c').
Proof using Hb.
  unfold scan. induction c as [ | | |n|b|w es IH|w ms IH] using cst_ind'; intros c' (E & W & W').
  1-5: destruct c'; try discriminate E; exact I.
  - apply cont_arr_inv in E as (w' & es' & -> & F). cbn [scan_with].
    inversion W as [| | | | |? ? _ Wes|]; subst. inversion W' as [| | | | |? ? _ Wes'|]; subst. clear W W'.
    induction F as [|e e' es es' E _ IHF]; [exact I|].
    inversion IH as [|? ? IHe IHes]; subst. inversion Wes as [|? ? We Wr]; subst. inversion Wes' as [|? ? We' Wr']; subst.
    destruct e as [a v b], e' as [a' v' b']. cbn [i_val] in *.
    assert (G : simE (scan_with hit final below Some None v) (scan_with hit final below Some None v')).
    { apply IHe. split; [exact E|]. inversion We; inversion We'; auto. }
    destruct (scan_with hit final below Some None v), (scan_with hit final below Some None v'); try contradiction; auto.
  - apply cont_obj_inv in E as (w' & ms' & -> & F). cbn [scan_with].
    inversion W as [| | | | | |? ? _ Wms]; subst. inversion W' as [| | | | | |? ? _ Wms']; subst. clear W W'.
    induction F as [|m m' ms ms' (En & E) _ IHF]; [exact I|].
    inversion IH as [|? ? IHe IHms]; subst. inversion Wms as [|? ? We Wr]; subst. inversion Wms' as [|? ? We' Wr']; subst.
    specialize (IHF IHms Wr Wr'). rewrite <- En.
    destruct m as [a k b c v d], m' as [a' k' b' c' v' d']. cbn [m_val] in *.
    assert (V : eqc v v') by (split; [exact E|]; inversion We; inversion We'; auto).
    destruct (hit _); [|exact IHF]. destruct final; [exact V|].
    pose proof (IHe v' V) as G. pose proof (Hb v v' V) as B. destruct V as (Ev & _).
    destruct v; destruct v'; try discriminate Ev; try exact I.
    + destruct (below (CArr _ _)), (below (CArr _ _)); try contradiction; [exact B|].
      match goal with |- simE (match ?a with _ => _ end) (match ?b with _ => _ end) => destruct a, b; try contradiction; auto end.
    + destruct (below (CObj _ _)), (below (CObj _ _)); try contradiction; [exact B|].
      match goal with |- simE (match ?a with _ => _ end) (match ?b with _ => _ end) => destruct a, b; try contradiction; auto end.
Qed.
End Scan.

Lemma sim_flat o o' : sim2 o o' -> sim (flat o) (flat o').
Proof. destruct o, o'; cbn; tauto. Qed.
Lemma collect_sim f l l' : (forall c c', eqc c c' -> sim (f c) (f c')) -> Forall2 eqc l l' -> Forall2 eqc (collect f l) (collect f l').
Proof.
  intros Hf. unfold collect. induction 1 as [|c c' l l' E _ IH]; [constructor|]. cbn [flat_map].
  specialize (Hf c c' E). destruct (f c), (f c'); cbn in Hf; try contradiction; cbn [app]; auto.
Qed.
Lemma array_of_sim l l' : Forall2 eqc l l' -> eqc (array_of l) (array_of l').
Proof.
  intros H. unfold eqc, array_of. rewrite !cont_arr, !map_map. cbn [i_val]. split; [|split].
  - f_equal. apply Forall2_map_eq. eapply F2_impl; [|exact H]. intros a b E. apply E.
  - constructor; [constructor|]. apply Forall_forall. intros e He. apply in_map_iff in He as (c & <- & Hi).
    constructor; [constructor| |constructor]. clear - H Hi. induction H as [|x y l l' E _ IH]; [destruct Hi|].
    destruct Hi as [->|Hi]; [apply E|auto].
  - constructor; [constructor|]. apply Forall_forall. intros e He. apply in_map_iff in He as (c & <- & Hi).
    constructor; [constructor| |constructor]. clear - H Hi. induction H as [|x y l l' E _ IH]; [destruct Hi|].
    destruct Hi as [->|Hi]; [apply E|auto].
Qed.
Lemma filter_sim (h : cst -> bool) l l' : (forall c c', eqc c c' -> h c = h c') -> Forall2 eqc l l' -> Forall2 eqc (filter h l) (filter h l').
Proof.
  intros Hf. induction 1 as [|c c' l l' E _ IH]; [constructor|]. cbn [filter]. rewrite (Hf c c' E). destruct (h c'); auto.
Qed.
Lemma find_sim (h : cst -> bool) l l' : (forall c c', eqc c c' -> h c = h c') -> Forall2 eqc l l' -> sim (find h l) (find h l').
Proof.
  intros Hf. induction 1 as [|c c' l l' E _ IH]; [exact I|]. cbn [find]. rewrite (Hf c c' E). destruct (h c'); [exact E|auto].
Qed.
Lemma nth_sim l l' : Forall2 eqc l l' -> forall n, sim (nth_error l n) (nth_error l' n).
Proof. induction 1 as [|c c' l l' E _ IH]; intros [|n]; cbn; auto. Qed.

Lemma wf_decimal n : wf (CNum (decimal n)).
Proof. constructor. rewrite <- decimal_eq. apply dec_of_nat_spec. Qed.

Section Eval.
Context (mt : text -> text -> bool) (ix : text -> option nat) (hd : text -> cst -> bool) (all : list step).
Hypothesis Hh : forall q al c c', In (Query q al) all -> eqc c c' -> hd q c = hd q c'.

Lemma eval_sim : forall ss, (forall s, In s ss -> In s all) -> forall c c', eqc c c' -> sim2 (eval mt ix hd ss c) (eval mt ix hd ss c').
Proof using Hh.
  induction ss as [|s ss IH]; intros Hi c c' E; [exact E|].
  assert (IH' : forall c c', eqc c c' -> sim2 (eval mt ix hd ss c) (eval mt ix hd ss c')) by (apply IH; intros; apply Hi; right; auto).
  assert (Hs : forall q al c c', s = Query q al -> eqc c c' -> hd q c = hd q c') by (intros q al x y ->; apply (Hh q al); apply Hi; left; auto).
  assert (IHf : forall c c', eqc c c' -> sim (flat (eval mt ix hd ss c)) (flat (eval mt ix hd ss c'))) by (intros; apply sim_flat; auto).
  clear IH Hi. destruct E as (E & W & W').
  destruct c as [ | | |n|b|w es|w ms].
  1-5: destruct c'; try discriminate E; exact I.
  - apply cont_arr_inv in E as (w' & es' & -> & F). inversion W as [| | | | |? ? _ Wes|]; subst. inversion W' as [| | | | |? ? _ Wes'|]; subst.
    pose proof (eqc_items _ _ F Wes Wes') as G. cbn [eval]. destruct s as [k| |q al].
    + destruct (ix k) as [n|]; [|exact I]. pose proof (nth_sim _ _ G n) as N. rewrite !nth_error_map in N.
      destruct (nth_error es n), (nth_error es' n); cbn [option_map] in N; cbn in N; try contradiction; [|exact I]. cbn. apply IHf, N.
    + destruct ss as [|s2 ss].
      * cbn. rewrite (F2_len _ _ _ F). split; [reflexivity|]. split; apply wf_decimal.
      * cbn [sim2 sim]. apply array_of_sim, collect_sim; auto.
    + destruct al.
      * cbn [sim2 sim]. apply array_of_sim, collect_sim; auto. apply filter_sim; auto. intros; apply (Hs q true); auto.
      * pose proof (find_sim (hd q) _ _ (fun c c' => Hs q false c c' eq_refl) G) as N.
        destruct (find (hd q) (map i_val es)), (find (hd q) (map i_val es')); cbn in N; try contradiction; [|exact I]. cbn. apply IHf, N.
  - assert (E' := E). apply cont_obj_inv in E' as (w' & ms' & -> & F). cbn [eval].
    pose proof (scan_sim (hits mt s) (match ss with [] => true | _ => false end) (eval mt ix hd ss) IH' _ _ (conj E (conj W W'))) as S.
    destruct (scan _ _ _ _), (scan _ _ _ _); cbn in S; try contradiction; try exact I. exact S.
Qed.
End Eval.

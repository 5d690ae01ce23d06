(** Paths do not notice the order of the members of objects. *)
From Coq Require Import Arith Lia List NArith ZArith Bool Permutation.
From Verif Require Import P_Base P_Json P_Valid P_ValidSpec P_Str P_Doc P_Each P_LGet P_Value P_GetArr P_Eval P_ModDoc P_Taken P_Again P_Total P_Laws P_Mixed P_Truth P_Query
  M_Util M_Num M_Scan M_Value M_Valid M_Get S_Json S_Str S_Get S_Path S_Query S_Tree S_Follow S_Mod S_Eval S_Api S_Taken S_Same S_Panic S_Truth S_Compose S_Said S_Shuffle P_Said.
Import ListNotations.
Open Scope list_scope.
Open Scope nat_scope.

Definition shc (c c' : cst) : Prop := shuffled (cont c) (cont c').
Definition shm (m m' : memb cst) : Prop := name_of m = name_of m' /\ shc (m_val m) (m_val m').
(** The members in another order. *)
Definition mixed (ms ms' : list (memb cst)) : Prop :=
  Forall2 shm ms ms' \/ exists ms1, NoDup (map name_of ms) /\ Forall2 shm ms ms1 /\ Permutation ms1 ms'.

Lemma shc_refl c : shc c c.
Proof. apply sf_same. Qed.
Lemma F2_refl {A} (P : A -> A -> Prop) l : (forall x, P x x) -> Forall2 P l l.
Proof. intros H. induction l; constructor; auto. Qed.
Lemma F2_unmap {A B C D} (P : C -> D -> Prop) (f : A -> C) (g : B -> D) : forall l l', Forall2 P (map f l) (map g l') -> Forall2 (fun a b => P (f a) (g b)) l l'.
Proof. induction l as [|x l IH]; intros [|y l'] H; inversion H; subst; constructor; auto. Qed.
Lemma shc_arr_inv w es c' : shc (CArr w es) c' ->
  exists w' es', c' = CArr w' es' /\ Forall2 (fun e e' => shc (i_val e) (i_val e')) es es'.
Proof.
  unfold shc. rewrite cont_arr. intros H. inversion H as [t Et E|l l' F El E| |]; subst.
  - destruct c' as [ | | |n|b|w' es'|w' ms]; try discriminate E. rewrite cont_arr in E. injection E as E. exists w', es'. split; [reflexivity|].
    apply map_Forall2 in E. eapply F2_impl; [|exact E]. intros a b Q. unfold shc. rewrite Q. apply sf_same.
  - destruct c' as [ | | |n|b|w' es'|w' ms]; try discriminate E. rewrite cont_arr in E. injection E as ->. exists w', es'. split; [reflexivity|].
    apply F2_unmap in F. exact F.
Qed.
Lemma shc_obj_inv w ms c' : shc (CObj w ms) c' -> exists w' ms', c' = CObj w' ms' /\ mixed ms ms'.
Proof.
  unfold shc. rewrite cont_obj. intros H. inversion H as [t Et E| |l l' F El E|l l1 l' N F P El E]; subst.
  - destruct c' as [ | | |n|b|w' es'|w' ms']; try discriminate E. rewrite cont_obj in E. injection E as E. exists w', ms'. split; [reflexivity|].
    left. apply map_Forall2 in E. eapply F2_impl; [|exact E]. intros a b [= Q1 Q2]. split; [rewrite !name_said; exact Q1|]. unfold shc. rewrite Q2. apply sf_same.
  - destruct c' as [ | | |n|b|w' es'|w' ms']; try discriminate E. rewrite cont_obj in E. injection E as ->. exists w', ms'. split; [reflexivity|].
    left. apply F2_unmap in F. exact F.
  - destruct c' as [ | | |n|b|w' es'|w' ms']; try discriminate E. rewrite cont_obj in E. injection E as ->. exists w', ms'. split; [reflexivity|].
    right. apply Permutation_map_inv in P as (ms1 & -> & P). exists ms1. split; [rewrite map_map in N; exact N|].
    split; [apply F2_unmap in F; exact F|]. apply Permutation_sym, P.
Qed.
Lemma shc_arr w w' es es' : Forall2 (fun e e' => shc (i_val e) (i_val e')) es es' -> shc (CArr w es) (CArr w' es').
Proof. intros H. unfold shc. rewrite !cont_arr. apply sf_arr. induction H; constructor; auto. Qed.
Lemma shc_obj w w' ms ms' : mixed ms ms' -> shc (CObj w ms) (CObj w' ms').
Proof.
  intros [H|(ms1 & N & H & P)]; unfold shc; rewrite !cont_obj.
  - apply sf_obj. induction H as [|a b l l' (Q1 & Q2)]; constructor; auto.
  - apply (sf_order _ (map (fun m => (said (m_key m), cont (m_val m))) ms1)).
    + rewrite map_map. exact N.
    + clear N P. induction H as [|a b l l' (Q1 & Q2)]; constructor; auto.
    + apply Permutation_map, P.
Qed.
(** What is not an array or object is the same. *)
Lemma shc_leaf c c' : shc c c' -> is_container c = false -> cont c = cont c' /\ is_container c' = false.
Proof.
  unfold shc. intros H K. inversion H as [t Et E|l l' F El E|l l' F El E|l l1 l' N F P El E]; subst.
  - split; [reflexivity|]. destruct c, c'; try discriminate K; try discriminate E; reflexivity.
  - destruct c; discriminate.
  - destruct c; discriminate.
  - destruct c; discriminate.
Qed.
Lemma shc_kind c c' : shc c c' -> kind_of c = kind_of c'.
Proof.
  intros H. destruct (is_container c) eqn:K.
  - destruct c as [ | | |n|b|w es|w ms]; try discriminate K.
    + apply shc_arr_inv in H as (w' & es' & -> & _). reflexivity.
    + apply shc_obj_inv in H as (w' & es' & -> & _). reflexivity.
  - apply shc_leaf in H as (E & K'); [|exact K]. destruct c, c'; try discriminate K; try discriminate K'; try discriminate E; reflexivity.
Qed.
Lemma mixed_len ms ms' : mixed ms ms' -> length ms = length ms'.
Proof. intros [H|(l & _ & H & P)]; [exact (F2_len _ _ _ H)|]. rewrite (F2_len _ _ _ H). apply Permutation_length, P. Qed.

Definition oc (d d' : cst) : Prop := shc d d' /\ wf d /\ wf d'.
Definition osim (o o' : option cst) : Prop :=
  match o, o' with None, None => True | Some d, Some d' => oc d d' | _, _ => False end.
Definition osim2 (o o' : option (option cst)) : Prop :=
  match o, o' with None, None => True | Some d, Some d' => osim d d' | _, _ => False end.
Definition osimE (e e' : ending (option cst)) : Prop :=
  match e, e' with Found a, Found b => osim a b | Stop, Stop => True | Go, Go => True | _, _ => False end.

Lemma oc_items es es' : Forall2 (fun e e' => shc (i_val e) (i_val e')) es es' -> Forall wf_item es -> Forall wf_item es' ->
  Forall2 oc (map i_val es) (map i_val es').
Proof.
  induction 1 as [|e e' es es' E _ IH]; intros H H'; [constructor|]. inversion H; subst. inversion H'; subst. cbn [map].
  constructor; [|auto]. split; [exact E|]. destruct e, e'. cbn. inversion H2; inversion H4; auto.
Qed.

Lemma oc_item a v b a' v' b' : wf_item (Item a v b) -> wf_item (Item a' v' b') -> shc v v' -> oc v v'.
Proof. intros H H' E. inversion H; inversion H'; subst. split; auto. Qed.

Section Scan.
Context (hit : text -> bool) (final : bool) (below : cst -> option (option cst)).
Hypothesis Hb : forall c c', oc c c' -> osim2 (below c) (below c').
Hypothesis Hhit : forall n n', hit n = true -> hit n' = true -> n = n'.

Definition sel (v : cst) : ending (option cst) :=
  if final then Found (Some v)
  else match v with
       | CArr _ _ | CObj _ _ =>
           match below v with
           | Some r => Found r
           | None => match scan hit final below v with Go => Stop | e => e end
           end
       | _ => Found None
       end.
Lemma obj_nohit w ms : Forall (fun m => hit (name_of m) = false) ms -> scan hit final below (CObj w ms) = Stop.
Proof using.
  unfold scan. cbn [scan_with]. induction 1 as [|m ms H _ IH]; [reflexivity|]. destruct m as [a k b c v d]. rewrite H. exact IH.
Qed.
Lemma obj_hit w ms m : NoDup (map name_of ms) -> In m ms -> hit (name_of m) = true -> scan hit final below (CObj w ms) = sel (m_val m).
Proof using Hhit.
  induction ms as [|x ms IH]; intros N Hi Hm; [destruct Hi|]. cbn [map] in N. inversion N as [|? ? Nx N1]; subst.
  assert (Nh : hit (name_of x) = true -> scan hit final below (CObj w ms) = Stop).
  { intros Hx. apply obj_nohit. apply Forall_forall. intros y Hy. destruct (hit (name_of y)) eqn:E; [|reflexivity]. exfalso. apply Nx.
    rewrite (Hhit _ _ Hx E). apply in_map, Hy. }
  destruct (hit (name_of x)) eqn:Hx.
  - assert (E : x = m).
    { destruct Hi as [->|Hi]; [reflexivity|]. exfalso. apply Nx. rewrite (Hhit _ _ Hx Hm). apply in_map, Hi. }
    subst x. specialize (Nh eq_refl). unfold scan in *. cbn [scan_with] in *. destruct m as [a k b c v d]. rewrite Hm. cbn [m_val]. unfold sel, scan.
    destruct final; [reflexivity|]. destruct v; try reflexivity; destruct (below _); try reflexivity;
      destruct (scan_with hit _ below Some None _); try reflexivity; exact Nh.
  - destruct Hi as [->|Hi]; [congruence|]. rewrite <- (IH N1 Hi Hm). unfold scan. cbn [scan_with]. destruct x as [a k b c v d]. rewrite Hx. reflexivity.
Qed.
Lemma names_mixed ms ms' : Forall2 shm ms ms' -> map name_of ms = map name_of ms'.
Proof using. induction 1 as [|a b l l' (E & _)]; cbn [map]; congruence. Qed.
Lemma F2_in {A B} (P : A -> B -> Prop) l l' x : Forall2 P l l' -> In x l -> exists y, In y l' /\ P x y.
Proof using. induction 1 as [|a b l l' H _ IH]; intros Hi; [destruct Hi|]. destruct Hi as [->|Hi]; [exists b; split; [left|]; auto|]. destruct (IH Hi) as (y & Y & Q). exists y. split; [right|]; auto. Qed.

Lemma scan_osim : forall c c', oc c c' -> osimE (scan hit final below c) (scan hit final below c').
Proof using Hb Hhit.
  induction c as [ | | |n|b|w es IH|w ms IH] using cst_ind'; intros c' (E & W & W').
  1-5: apply shc_leaf in E as (E & K); [|reflexivity]; destruct c'; try discriminate K; try discriminate E; exact I.
  - apply shc_arr_inv in E as (w' & es' & -> & F). unfold scan in *. cbn [scan_with].
    inversion W as [| | | | |? ? _ Wes|]; subst. inversion W' as [| | | | |? ? _ Wes'|]; subst. clear W W'.
    induction F as [|e e' es es' E _ IHF]; [exact I|].
    inversion IH as [|? ? IHe IHes]; subst. inversion Wes as [|? ? We Wr]; subst. inversion Wes' as [|? ? We' Wr']; subst.
    destruct e as [a v b], e' as [a' v' b']. cbn [i_val] in *.
    pose proof (IHe v' (oc_item _ _ _ _ _ _ We We' E)) as G.
    destruct (scan_with hit final below Some None v), (scan_with hit final below Some None v'); try contradiction; auto.
  - apply shc_obj_inv in E as (w' & ms' & -> & M).
    inversion W as [| | | | | |? ? _ Wms]; subst. inversion W' as [| | | | | |? ? _ Wms']; subst. clear W W'.
    assert (SUB : forall m m', In m ms -> wf_memb m -> wf_memb m' -> shm m m' ->
      oc (m_val m) (m_val m') /\ osimE (scan hit final below (m_val m)) (scan hit final below (m_val m'))).
    { intros m m' Hi Wm Wm' (_ & E). rewrite Forall_forall in IH. specialize (IH m Hi).
      destruct m as [a k b c v d], m' as [a' k' b' c' v' d']. cbn [m_val] in *. assert (V : oc v v') by (split; [exact E|]; inversion Wm; inversion Wm'; auto).
      split; [exact V|]. exact (IH v' V). }
    clear IH. destruct M as [F|(ms1 & N & F & P)].
    + unfold scan. cbn [scan_with].
      revert Wms Wms' SUB. induction F as [|m m' ms ms' E _ IHF]; intros Wms Wms' SUB; [exact I|].
      inversion Wms as [|? ? We Wr]; subst. inversion Wms' as [|? ? We' Wr']; subst.
      specialize (IHF Wr Wr' (fun a b Hi => SUB a b (or_intror Hi))). destruct (SUB m m' (or_introl eq_refl) We We' E) as (V & G). destruct E as (En & _). rewrite <- En.
      destruct m as [a k b c v d], m' as [a' k' b' c' v' d']. cbn [m_val] in *.
      destruct (hit _); [|exact IHF]. destruct final eqn:Ef; [exact V|]. pose proof (Hb v v' V) as B. pose proof (proj1 V) as E.
      destruct (is_container v) eqn:K.
      * destruct v as [ | | |n|t|x es|x es]; try discriminate K.
        -- apply shc_arr_inv in E as (x' & es' & -> & _). destruct (below (CArr x es)), (below (CArr x' es')); try contradiction; [exact B|].
           unfold scan in G. destruct (scan_with hit _ below Some None (CArr x es)), (scan_with hit _ below Some None (CArr x' es')); try contradiction; auto.
        -- apply shc_obj_inv in E as (x' & es' & -> & _). destruct (below (CObj x es)), (below (CObj x' es')); try contradiction; [exact B|].
           unfold scan in G. destruct (scan_with hit _ below Some None (CObj x es)), (scan_with hit _ below Some None (CObj x' es')); try contradiction; auto.
      * apply shc_leaf in E as (E & K'); [|exact K]. destruct v; try discriminate K; destruct v'; try discriminate K'; exact I.
    + assert (N' : NoDup (map name_of ms')) by (eapply Permutation_NoDup; [apply Permutation_map, P|]; rewrite <- (names_mixed _ _ F); exact N).
      destruct (existsb (fun m => hit (name_of m)) ms) eqn:X.
      * apply existsb_exists in X as (m & Hi & Hm). destruct (F2_in _ _ _ _ F Hi) as (m' & Hi' & S).
        apply (Permutation_in _ P) in Hi'. rewrite (obj_hit w ms m N Hi Hm), (obj_hit w' ms' m' N' Hi'); [|rewrite <- (proj1 S); exact Hm].
        rewrite Forall_forall in Wms, Wms'. destruct (SUB m m' Hi (Wms _ Hi) (Wms' _ Hi') S) as (V & G). pose proof (Hb _ _ V) as B.
        unfold sel. destruct final eqn:Ef; [exact V|]. pose proof (proj1 V) as E. destruct (is_container (m_val m)) eqn:K.
        -- destruct (m_val m) as [ | | |n|t|x es|x es]; try discriminate K.
           ++ apply shc_arr_inv in E as (x' & es' & E & _). rewrite E in *. destruct (below (CArr x es)), (below (CArr x' es')); try contradiction; [exact B|].
              destruct (scan hit _ below (CArr x es)), (scan hit _ below (CArr x' es')); try contradiction; auto.
           ++ apply shc_obj_inv in E as (x' & es' & E & _). rewrite E in *. destruct (below (CObj x es)), (below (CObj x' es')); try contradiction; [exact B|].
              destruct (scan hit _ below (CObj x es)), (scan hit _ below (CObj x' es')); try contradiction; auto.
        -- apply shc_leaf in E as (E & K'); [|exact K]. destruct (m_val m); try discriminate K; destruct (m_val m'); try discriminate K'; exact I.
      * assert (Z : forall m, In m ms -> hit (name_of m) = false).
        { intros m Hi. destruct (hit (name_of m)) eqn:Hm; [|reflexivity]. rewrite <- X. symmetry. apply existsb_exists. exists m. auto. }
        rewrite (obj_nohit w ms), (obj_nohit w' ms'); [exact I| |apply Forall_forall, Z].
        apply Forall_forall. intros m' Hi'. destruct (hit (name_of m')) eqn:Hm; [|reflexivity].
        assert (Hn : In (name_of m') (map name_of ms)).
        { rewrite (names_mixed _ _ F). eapply Permutation_in; [apply Permutation_sym, Permutation_map, P|]. apply in_map, Hi'. }
        apply in_map_iff in Hn as (m & En & Hi). rewrite <- En, (Z m Hi) in Hm. discriminate.
Qed.
End Scan.

Lemma osim_flat o o' : osim2 o o' -> osim (flat o) (flat o').
Proof. destruct o, o'; cbn; tauto. Qed.
Lemma collect_osim f l l' : (forall c c', oc c c' -> osim (f c) (f c')) -> Forall2 oc l l' -> Forall2 oc (collect f l) (collect f l').
Proof.
  intros Hf. unfold collect. induction 1 as [|c c' l l' E _ IH]; [constructor|]. cbn [flat_map].
  specialize (Hf c c' E). destruct (f c), (f c'); cbn in Hf; try contradiction; cbn [app]; auto.
Qed.
Lemma array_of_osim l l' : Forall2 oc l l' -> oc (array_of l) (array_of l').
Proof.
  intros H. unfold array_of. split; [|split].
  - apply shc_arr. induction H as [|a b l l' (Q & _)]; cbn [map]; constructor; auto.
  - constructor; [constructor|]. apply Forall_forall. intros e He. apply in_map_iff in He as (c & <- & Hi).
    constructor; [constructor| |constructor]. clear - H Hi. induction H as [|x y l l' E _ IH]; [destruct Hi|].
    destruct Hi as [->|Hi]; [apply E|auto].
  - constructor; [constructor|]. apply Forall_forall. intros e He. apply in_map_iff in He as (c & <- & Hi).
    constructor; [constructor| |constructor]. clear - H Hi. induction H as [|x y l l' E _ IH]; [destruct Hi|].
    destruct Hi as [->|Hi]; [apply E|auto].
Qed.
Lemma filter_osim (h : cst -> bool) l l' : (forall c c', oc c c' -> h c = h c') -> Forall2 oc l l' -> Forall2 oc (filter h l) (filter h l').
Proof.
  intros Hf. induction 1 as [|c c' l l' E _ IH]; [constructor|]. cbn [filter]. rewrite (Hf c c' E). destruct (h c'); auto.
Qed.
Lemma find_osim (h : cst -> bool) l l' : (forall c c', oc c c' -> h c = h c') -> Forall2 oc l l' -> osim (find h l) (find h l').
Proof.
  intros Hf. induction 1 as [|c c' l l' E _ IH]; [exact I|]. cbn [find]. rewrite (Hf c c' E). destruct (h c'); [exact E|auto].
Qed.
Lemma nth_osim l l' : Forall2 oc l l' -> forall n, osim (nth_error l n) (nth_error l' n).
Proof. induction 1 as [|c c' l l' E _ IH]; intros [|n]; cbn; auto. Qed.

Section Eval.
Context (mt : text -> text -> bool) (ix : text -> option nat) (hd : text -> cst -> bool) (all : list step).
Hypothesis Hh : forall q al c c', In (Query q al) all -> oc c c' -> hd q c = hd q c'.
Hypothesis Hk : forall k n n', In (Name k) all -> mt k n = true -> mt k n' = true -> n = n'.

Lemma hits_one s n n' : In s all -> hits mt s n = true -> hits mt s n' = true -> n = n'.
Proof using Hk.
  intros Hs. destruct s as [k| |q al]; cbn [hits]; [apply Hk, Hs| |]; destruct (list_eq_dec N.eq_dec n _), (list_eq_dec N.eq_dec n' _); congruence.
Qed.
Lemma eval_osim : forall ss, (forall s, In s ss -> In s all) -> forall c c', oc c c' -> osim2 (eval mt ix hd ss c) (eval mt ix hd ss c').
Proof using Hh Hk.
  induction ss as [|s ss IH]; intros Hi c c' E; [exact E|].
  assert (IH' : forall c c', oc c c' -> osim2 (eval mt ix hd ss c) (eval mt ix hd ss c')) by (apply IH; intros; apply Hi; right; auto).
  assert (Hs : forall q al c c', s = Query q al -> oc c c' -> hd q c = hd q c') by (intros q al x y ->; apply (Hh q al); apply Hi; left; auto).
  assert (IHf : forall c c', oc c c' -> osim (flat (eval mt ix hd ss c)) (flat (eval mt ix hd ss c'))) by (intros; apply osim_flat; auto).
  assert (Hin : In s all) by (apply Hi; left; reflexivity).
  clear IH Hi. destruct E as (E & W & W'). destruct (is_container c) eqn:K.
  2:{ apply shc_leaf in E as (E & K'); [|exact K]. destruct c; try discriminate K; destruct c'; try discriminate K'; exact I. }
  destruct c as [ | | |n|b|w es|w ms]; try discriminate K.
  - apply shc_arr_inv in E as (w' & es' & -> & F). inversion W as [| | | | |? ? _ Wes|]; subst. inversion W' as [| | | | |? ? _ Wes'|]; subst.
    pose proof (oc_items _ _ F Wes Wes') as G. cbn [eval]. destruct s as [k| |q al].
    + destruct (ix k) as [n|]; [|exact I]. pose proof (nth_osim _ _ G n) as N. rewrite !nth_error_map in N.
      destruct (nth_error es n), (nth_error es' n); cbn [option_map] in N; cbn in N; try contradiction; [|exact I]. cbn. apply IHf, N.
    + destruct ss as [|s2 ss].
      * cbn. rewrite (F2_len _ _ _ F). split; [apply shc_refl|]. split; apply wf_decimal.
      * cbn [osim2 osim]. apply array_of_osim, collect_osim; auto.
    + destruct al.
      * cbn [osim2 osim]. apply array_of_osim, collect_osim; auto. apply filter_osim; auto. intros; apply (Hs q true); auto.
      * pose proof (find_osim (hd q) _ _ (fun c c' => Hs q false c c' eq_refl) G) as N.
        destruct (find (hd q) (map i_val es)), (find (hd q) (map i_val es')); cbn in N; try contradiction; [|exact I]. cbn. apply IHf, N.
  - assert (E' := E). apply shc_obj_inv in E' as (w' & ms' & -> & F). cbn [eval].
    pose proof (scan_osim (hits mt s) (match ss with [] => true | _ => false end) (eval mt ix hd ss) IH' (fun n n' => hits_one s n n' Hin) _ _ (conj E (conj W W'))) as S.
    destruct (scan _ _ _ _), (scan _ _ _ _); cbn in S; try contradiction; try exact I. exact S.
Qed.
End Eval.

(** Names without wildcards select at most one name. *)
Lemma single_plain k : Forall (fun c => c <> 42%N /\ c <> 63%N) k -> single k.
Proof.
  intros H. unfold single. assert (B : bare_qm k = k).
  { remember (length k) as n eqn:E. assert (L : length k <= n) by lia. clear E. revert k H L. induction n as [|n IH]; intros [|c k] H L; cbn [length] in L; try lia; try reflexivity.
    cbn [bare_qm]. inversion H as [|? ? Hc Hk]; subst. destruct (c =? 92)%N.
    - destruct k as [|d k]; [reflexivity|]. inversion Hk as [|? ? Hd Hk2]; subst. destruct (N.eqb_spec d 63); [destruct Hd; congruence|]. rewrite IH; auto. cbn [length] in L. lia.
    - rewrite IH; auto. lia. }
  rewrite B. clear B. intros n n' G. revert n' . induction G as [|p s G IH|p u s Hu G IH|p u s Hu G IH|c p s G IH|c p s H1 H2 H3 G IH]; intros n' G'.
  - inversion G'; reflexivity.
  - inversion H as [|? ? (Q & _) _]; subst. congruence.
  - inversion H as [|? ? (Q & _) _]; subst. congruence.
  - inversion H as [|? ? (_ & Q) _]; subst. congruence.
  - inversion H as [|? ? _ Hr]; subst. inversion Hr; subst. inversion G'; subst; try congruence. f_equal. auto.
  - inversion H as [|? ? _ Hr]; subst. inversion G'; subst; try congruence. f_equal. auto.
Qed.
